(** Sandboxes cannot learn about, or influence, each other through the memory
    service: what one sandbox is told depends only on its own requests, on what
    the host does with its memory, and on which sandboxes exist. *)
From Coq Require Import List ZArith Bool Lia.
From Verif Require Import Base RegionModel RegionSpec BuddyModel BuddyProof MemSvcModel MemSvcSpec MemSvcProof MemSvcProps MemSvcNISpec.
Import ListNotations.
Open Scope Z_scope.

(** ** Proof *)

Definition clean (pm : pagemap) : Prop := forall k, Z.land (e_meta (pm k)) META_BOUNDARY_BIT = 0.

Lemma clean_pm_set pm k t : clean pm -> clean (pm_set pm k t).
Proof.
  intros H j. unfold pm_set. destruct (j =? k); [|apply H]. cbn [assign e_meta].
  rewrite Z.land_lor_distr_l, <- Z.land_assoc, Z.land_diag, H, Z.lor_0_r.
  rewrite Z.ldiff_land, <- Z.land_assoc, (Z.land_comm (Z.lnot _)), Z.land_lnot_diag. apply Z.land_0_r.
Qed.

Lemma clean_set_loop c : forall n a t pm, clean pm -> clean (set_loop c n a t pm).
Proof. induction n; intros a t pm H; cbn; [exact H|]. apply IHn, clean_pm_set, H. Qed.

Lemma clean_destroy_loop c : forall n a pm, clean pm -> clean (fst (destroy_loop c n a pm)).
Proof.
  induction n; intros a pm H; cbn [destroy_loop]; [exact H|].
  specialize (IHn (a + chunk c) _ (clean_pm_set pm (a / chunk c) empty_entry H)).
  destruct (destroy_loop c n (a + chunk c) (pm_set pm (a / chunk c) empty_entry)). exact IHn.
Qed.

Lemma clean_assign_empty pm pm' k k' : clean pm -> clean pm' ->
  assign (pm k) empty_entry = assign (pm' k') empty_entry.
Proof. intros H H'. unfold assign. rewrite (H k), (H' k'). reflexivity. Qed.

(** An entry after a loop depends only on the entry before it. *)
Lemma pm_set_local pm pm' i t k : pm k = pm' k -> pm_set pm i t k = pm_set pm' i t k.
Proof. intros H. unfold pm_set. destruct (Z.eqb_spec k i) as [->|]; congruence. Qed.

Lemma set_loop_local c : forall n a t pm pm' k, pm k = pm' k ->
  set_loop c n a t pm k = set_loop c n a t pm' k.
Proof. induction n; intros a t pm pm' k H; cbn; [exact H|]. apply IHn, pm_set_local, H. Qed.

Definition inside (b : sbx) (x : Z) : Prop := b_shm b <= x < b_shm b + region_size b.

Record same_for (c : cfg) (i : nat) (st st' : gstate) : Prop := {
  S_geo : map box_region (g_box st) = map box_region (g_box st');
  S_box : nth_error (g_box st) i = nth_error (g_box st') i;
  S_pm : forall x,
    (forall j b, j <> i -> nth_error (g_box st) j = Some b -> b_live b = true -> ~ inside b x) ->
    g_pm st (x / chunk c) = g_pm st' (x / chunk c);
  S_clean : clean (g_pm st);
  S_clean' : clean (g_pm st') }.

Lemma clean_step c st ev : clean (g_pm st) -> clean (g_pm (fst (step c st ev))).
Proof.
  intros H. destruct ev as [i rq|i size ras mp|i a size|shm bits|i]; cbn [step]; [..|exact H|];
    unfold on_box; (destruct (nth_error (g_box st) i) as [b|]; [|exact H]);
    (destruct (b_live b); [|exact H]).
  - unfold service, service_alloc, service_dealloc, backend_dealloc.
    repeat match goal with |- context [if ?x then _ else _] => destruct x; try exact H end.
    + destruct (alloc_range (b_free b) (rq_0 rq)) as [[a free']|]; [apply clean_set_loop|]; exact H.
    + apply clean_set_loop, H.
  - unfold host_alloc. destruct (alloc_range (b_free b) size) as [[a free']|]; [apply clean_set_loop|]; exact H.
  - apply clean_set_loop, H.
  - apply clean_destroy_loop, H.
Qed.

(** What an event of box j does, seen from outside it. *)
Lemma step_confined c st bk hp j ev st1 rs :
  cfg_ok c -> hinv c st bk hp -> hostile_ok c bk ev -> of_box j ev = true -> step c st ev = (st1, rs) ->
  map box_region (g_box st1) = map box_region (g_box st) /\
  (forall i, i <> j -> nth_error (g_box st1) i = nth_error (g_box st) i) /\
  (forall x, (forall b, nth_error (g_box st) j = Some b -> b_live b = true -> ~ inside b x) ->
             g_pm st1 (x / chunk c) = g_pm st (x / chunk c)).
Proof.
  intros C I H O Hs. pose proof (H_layout _ _ _ _ I) as L.
  assert (Geo : forall b b', nth_error (g_box st) j = Some b -> box_region b' = box_region b ->
            map box_region (upd j b' (g_box st)) = map box_region (g_box st)).
  { intros b b' Hb E. rewrite map_upd, E, upd_id; [reflexivity|]. rewrite nth_error_map, Hb. reflexivity. }
  destruct ev as [k rq|k size ras mp|k a size|shm bits|k]; cbn [of_box] in O; try discriminate;
    apply Nat.eqb_eq in O as ->; cbn [step] in Hs; unfold on_box in Hs;
    (destruct (nth_error (g_box st) j) as [b|] eqn:Hi; [|injection Hs as <- <-; auto]);
    (destruct (b_live b) eqn:Lv; [|injection Hs as <- <-; auto]);
    pose proof (L_ok _ _ _ L j b Hi Lv) as R; destruct (region_rough_pre _ _ _ R) as [P1 P2].
  - destruct (service c (g_pm st) b rq) as [[pm' b'] r] eqn:S. injection Hs as <- <-. cbn [g_box g_pm].
    apply service_effect in S; auto.
    split; [|split; [intros i Ne; apply upd_other; congruence|]].
    + destruct S; eapply Geo; eauto.
    + intros x Hx. specialize (Hx _ eq_refl Lv). unfold inside in Hx.
      destruct S as [rs R0 R1|a free' K0 CS V A|K1 CS Ca B1 B2 OB]; auto.
      * pose proof CS as (n & Hn & Hsz). rewrite Hsz in A.
        destruct (remove_block_f_rough _ _ _ P1 P2 _ _ _ _ _ Hn (H_free _ _ _ _ I j b Hi Lv) A) as [F1 F2].
        destruct (rough_region _ _ _ _ R F2) as (G1 & G2 & G3). rewrite <- Hsz in G3.
        rewrite set_metaentry_spec by auto.
        destruct (inblk a (rq_0 rq) x) eqn:Q; [|reflexivity]. apply inblk_true in Q. lia.
      * rewrite set_metaentry_spec by auto.
        destruct (inblk _ _ x) eqn:Q; [|reflexivity]. apply inblk_true in Q. pose proof (chunk_pos c). lia.
  - unfold host_alloc in Hs. destruct H as (CS & M1 & M2).
    destruct (alloc_range (b_free b) size) as [[a free']|] eqn:A; injection Hs as <- <-; cbn [g_box g_pm].
    2:{ rewrite upd_id by exact Hi. auto. }
    split; [eapply Geo; eauto|]. split; [intros i Ne; apply upd_other; congruence|].
    intros x Hx. specialize (Hx _ eq_refl Lv). unfold inside in Hx.
    pose proof CS as (n & Hn & Hsz). rewrite Hsz in A.
    destruct (remove_block_f_rough _ _ _ P1 P2 _ _ _ _ _ Hn (H_free _ _ _ _ I j b Hi Lv) A) as [F1 F2].
    destruct (rough_region _ _ _ _ R F2) as (G1 & G2 & G3). rewrite <- Hsz in G3.
    rewrite set_metaentry_spec by auto.
    destruct (inblk a size x) eqn:Q; [|reflexivity]. apply inblk_true in Q. lia.
  - unfold host_free, backend_dealloc in Hs. destruct H as (CS & Ca & IR). injection Hs as <- <-. cbn [g_box g_pm].
    destruct (in_region_box _ _ _ _ _ _ L IR) as (b0 & Hi0 & _ & R1 & R2).
    rewrite Hi in Hi0. injection Hi0 as <-.
    split; [eapply Geo; eauto|]. split; [intros i Ne; apply upd_other; congruence|].
    intros x Hx. specialize (Hx _ eq_refl Lv). unfold inside in Hx.
    rewrite set_metaentry_spec by auto.
    destruct (inblk a size x) eqn:Q; [|reflexivity]. apply inblk_true in Q. lia.
Qed.

Lemma geo_live st st' i b : map box_region (g_box st) = map box_region (g_box st') ->
  nth_error (g_box st) i = Some b ->
  exists b', nth_error (g_box st') i = Some b' /\ box_region b' = box_region b.
Proof.
  intros G H. assert (E : nth_error (map box_region (g_box st)) i = Some (box_region b))
    by (rewrite nth_error_map, H; reflexivity).
  rewrite G, nth_error_map in E. destruct (nth_error (g_box st') i) as [b'|]; [|discriminate].
  exists b'. cbn in E. split; congruence.
Qed.

(** Dropping an event of another box. *)
Lemma same_drop c i st bk hp j ev st1 rs st' :
  cfg_ok c -> hinv c st bk hp -> hostile_ok c bk ev -> of_box j ev = true -> j <> i ->
  same_for c i st st' -> step c st ev = (st1, rs) -> same_for c i st1 st'.
Proof.
  intros C I H O Ne [G B P Cl Cl'] Hs.
  destruct (step_confined _ _ _ _ _ _ _ _ C I H O Hs) as (E1 & E2 & E3).
  constructor.
  - congruence.
  - rewrite E2 by congruence. exact B.
  - intros x Hx.
    assert (Hx' : forall k b, k <> i -> nth_error (g_box st) k = Some b -> b_live b = true -> ~ inside b x).
    { intros k b Nk Hk Lk In. symmetry in E1. destruct (geo_live _ _ _ _ E1 Hk) as (b' & Hk' & E).
      injection E as Ea Eb Ec. apply (Hx k b' Nk Hk'); [congruence|].
      unfold inside, region_size in *. rewrite Ea, Eb. exact In. }
    rewrite E3 by (intros b Hb Lb; apply (Hx' j b Ne Hb Lb)). apply P, Hx'.
  - pose proof (clean_step c st ev Cl) as X. rewrite Hs in X. exact X.
  - exact Cl'.
Qed.

Lemma Up' st st' i b b' (v : sbx) : nth_error (g_box st) i = Some b -> nth_error (g_box st') i = Some b' ->
  nth_error (upd i v (g_box st)) i = nth_error (upd i v (g_box st')) i.
Proof. intros Hb Hb'. rewrite !nth_upd, Nat.eqb_refl, Hb, Hb'. reflexivity. Qed.
Lemma Geo' st i b b' : nth_error (g_box st) i = Some b -> box_region b' = box_region b ->
  map box_region (upd i b' (g_box st)) = map box_region (g_box st).
Proof. intros Hb E. rewrite map_upd, E, upd_id; [reflexivity|]. rewrite nth_error_map, Hb. reflexivity. Qed.

Ltac same := cbn [fst snd g_box g_pm];
  repeat split; try (eapply Up'; eauto; fail); try (eapply Geo'; eauto; fail);
  try (intros ? ?; assumption); try (intros ?; apply set_loop_local).

(** A step of box i itself. *)
Lemma same_own c i st bk hp ev st' :
  cfg_ok c -> hinv c st bk hp -> hostile_ok c bk ev -> of_box i ev = true ->
  same_for c i st st' ->
  same_for c i (fst (step c st ev)) (fst (step c st' ev)) /\
  snd (step c st ev) = snd (step c st' ev).
Proof.
  intros C I H O Sf. pose proof (H_layout _ _ _ _ I) as L.
  assert (Main : snd (step c st ev) = snd (step c st' ev) /\
    nth_error (g_box (fst (step c st ev))) i = nth_error (g_box (fst (step c st' ev))) i /\
    map box_region (g_box (fst (step c st' ev))) = map box_region (g_box st') /\
    (forall k, g_pm st k = g_pm st' k -> g_pm (fst (step c st ev)) k = g_pm (fst (step c st' ev)) k)).
  { destruct Sf as [G B P Cl Cl'].
    destruct ev as [k rq|k size ras mp|k a size|shm bits|k]; cbn [of_box] in O; try discriminate;
      apply Nat.eqb_eq in O as ->; cbn [step]; unfold on_box; rewrite <- B;
      (destruct (nth_error (g_box st) i) as [b|] eqn:Hi; [|cbn [fst snd]; rewrite <- B; auto]);
      (destruct (b_live b) eqn:Lv; [|cbn [fst snd]; rewrite Hi, <- B; auto]);
      pose proof (L_ok _ _ _ L i b Hi Lv) as R; symmetry in B.
    - assert (Own : forall x, inside b x -> g_pm st (x / chunk c) = g_pm st' (x / chunk c)).
      { intros x Hx. apply P. intros j b2 Nj Hj Lj Hx2.
        destruct (L_apart _ _ _ L i j b b2 Hi Hj Lv Lj (fun e => Nj (eq_sym e))); unfold inside in *; lia. }
      unfold service. destruct (rq_kind rq =? 0).
      + unfold service_alloc.
        destruct ((rq_0 rq <? chunk c) || negb (is_pow2 (rq_0 rq))).
        { same. }
        destruct (negb _).
        { same. }
        destruct (alloc_range (b_free b) (rq_0 rq)) as [[a free']|]; same.
      + destruct (rq_kind rq =? 1).
        2:{ same. }
        unfold service_dealloc.
        destruct (contains (box_heap c b) (rq_0 rq) (rq_1 rq)) eqn:Ct; cbn [negb].
        2:{ same. }
        destruct (is_pow2 (rq_1 rq) && (chunk c <=? rq_1 rq)) eqn:Sz; cbn [negb].
        2:{ same. }
        destruct (align_down (rq_0 rq) (chunk c) =? rq_0 rq) eqn:A; cbn [negb].
        2:{ same. }
        cbn [hostile_ok] in H. destruct H as (W0 & W1 & W2).
        apply andb_true_iff in Sz as [S1 S2].
        assert (CS : chunk_size c (rq_1 rq)).
        { apply size_ok; auto. rewrite S1. cbn. rewrite orb_false_r. apply Z.ltb_ge. lia. }
        apply align_down_fix in A.
        destruct (contains_after_header c b _ _ C R W0 W1 A Ct) as [B1 B2].
        pose proof (chunk_pos c) as Cp.
        assert (Eo : all_sandbox_owned c (g_pm st) (chunk_steps c (rq_1 rq)) (rq_0 rq)
                   = all_sandbox_owned c (g_pm st') (chunk_steps c (rq_1 rq)) (rq_0 rq)).
        { apply eq_true_iff_eq. rewrite !all_owned_bytes by auto.
          split; intros X x Hx; [rewrite <- Own|rewrite Own]; auto; unfold inside; lia. }
        rewrite <- Eo. destruct (all_sandbox_owned c (g_pm st) _ _); cbn [negb].
        2:{ same. }
        unfold backend_dealloc. same.
    - unfold host_alloc. destruct (alloc_range (b_free b) size) as [[a free']|]; same.
    - unfold host_free, backend_dealloc. same. }
  destruct Main as (M1 & M2 & M3 & M4). split; [|exact M1].
  destruct (step c st ev) as [st1 rs1] eqn:E. cbn [fst snd] in *.
  destruct (step_confined _ _ _ _ _ _ _ _ C I H O E) as (F1 & F2 & F3).
  destruct Sf as [G B P Cl Cl'].
  constructor.
  - congruence.
  - exact M2.
  - intros x Hx. apply M4, P. intros j b Nj Hj Lj. apply (Hx j b Nj); [|exact Lj].
    rewrite F2 by exact Nj. exact Hj.
  - pose proof (clean_step c st ev Cl) as X. rewrite E in X. exact X.
  - apply clean_step, Cl'.
Qed.

(** Creation and destruction. *)
Lemma same_both c i st bk hp ev st' :
  cfg_ok c -> hinv c st bk hp -> hostile_ok c bk ev -> comes_or_goes ev = true ->
  same_for c i st st' ->
  same_for c i (fst (step c st ev)) (fst (step c st' ev)).
Proof.
  intros C I H O [G B P Cl Cl']. pose proof (H_layout _ _ _ _ I) as L.
  assert (Len : length (g_box st) = length (g_box st')).
  { rewrite <- (map_length box_region), G. apply map_length. }
  constructor; [..|apply clean_step, Cl|apply clean_step, Cl'];
    (destruct ev as [k rq|k size ras mp|k a size|shm bits|k]; cbn [comes_or_goes] in O; try discriminate; cbn [step]).
  - cbn [fst g_box]. rewrite !map_app. congruence.
  - unfold on_box. destruct (nth_error (g_box st) k) as [b|] eqn:Hk.
    + destruct (geo_live _ _ _ _ G Hk) as (b' & Hk' & E). injection E as Ea Eb Ec.
      rewrite Hk', Ec. destruct (b_live b); [|exact G].
      cbn [fst g_box]. rewrite !map_upd, G. unfold box_region; cbn. congruence.
    + assert (nth_error (g_box st') k = None) as ->.
      { apply nth_error_None. apply nth_error_None in Hk. lia. }
      exact G.
  - cbn [fst g_box].
    destruct (Nat.lt_trichotomy i (length (g_box st))) as [Lt|[Eq|Gt]].
    + rewrite !nth_error_app1 by lia. exact B.
    + rewrite !nth_error_app2 by lia. subst i. rewrite Len. reflexivity.
    + rewrite !(proj2 (nth_error_None _ _)); [reflexivity|rewrite app_length; cbn; lia..].
  - unfold on_box. destruct (nth_error (g_box st) k) as [b|] eqn:Hk.
    + destruct (geo_live _ _ _ _ G Hk) as (b' & Hk' & E). injection E as Ea Eb Ec.
      rewrite Hk', Ec. destruct (b_live b); [|exact B].
      cbn [fst g_box]. rewrite !nth_upd. destruct (Nat.eqb_spec k i) as [->|]; [|exact B].
      rewrite Hk, Hk'. rewrite Hk, Hk' in B. injection B as ->. reflexivity.
    + assert (nth_error (g_box st') k = None) as ->.
      { apply nth_error_None. apply nth_error_None in Hk. lia. }
      exact B.
  - cbn [fst g_box g_pm]. intros x Hx. apply P. intros j b Nj Hj Lj. apply (Hx j b Nj); [|exact Lj].
    rewrite nth_error_app1; [exact Hj|]. apply nth_error_Some. congruence.
  - unfold on_box. destruct (nth_error (g_box st) k) as [b|] eqn:Hk.
    + destruct (geo_live _ _ _ _ G Hk) as (b' & Hk' & E). injection E as Ea Eb Ec.
      rewrite Hk', Ec. destruct (b_live b) eqn:Lv; [|exact P].
      cbn [fst g_box g_pm]. intros x Hx. pose proof (L_ok _ _ _ L k b Hk Lv) as R.
      rewrite !library_destroy_pm by (rewrite ?Ea, ?Eb; auto).
      unfold region_size. rewrite Ea, Eb. fold (region_size b).
      destruct (inblk (b_shm b) (region_size b) x) eqn:Q; [apply clean_assign_empty; auto|].
      apply P. intros j b2 Nj Hj Lj. destruct (Nat.eq_dec k j) as [->|Ne].
      * rewrite Hk in Hj. injection Hj as <-. intros X. apply inblk_true in X. congruence.
      * apply (Hx j b2 Nj); [|exact Lj]. rewrite upd_other by exact Ne. exact Hj.
    + assert (nth_error (g_box st') k = None) as ->.
      { apply nth_error_None. apply nth_error_None in Hk. lia. }
      exact P.
Qed.

Lemma ev_cases i ev : of_box i ev = true \/ comes_or_goes ev = true \/
  (of_box i ev = false /\ comes_or_goes ev = false /\ exists j, j <> i /\ of_box j ev = true).
Proof.
  destruct ev as [k rq|k size ras mp|k a size|shm bits|k]; cbn; auto;
    (destruct (Nat.eqb_spec k i); [auto|right; right; repeat split; auto; exists k; split; [assumption|apply Nat.eqb_refl]]).
Qed.

Lemma same_run c i : cfg_ok c -> forall evs st bk hp st',
  hinv c st bk hp -> admissible (hostile_ok c) c st bk evs -> same_for c i st st' ->
  same_for c i (fst (run c st evs)) (fst (run c st' (without_others i evs))) /\
  told i (snd (run c st evs)) = told i (snd (run c st' (without_others i evs))).
Proof.
  intros C. induction evs as [|ev evs IH]; intros st bk hp st' I A Sf; [split; [exact Sf|reflexivity]|].
  cbn [admissible] in A. destruct A as [H A]. cbn [run without_others filter].
  destruct (step c st ev) as [st1 rs] eqn:S.
  pose proof (hinv_step _ _ _ _ _ _ _ C I H S) as I1.
  fold (without_others i evs).
  destruct (ev_cases i ev) as [O|[O|(O1 & O2 & j & Nj & Oj)]].
  - rewrite O. cbn [orb run]. destruct (same_own _ _ _ _ _ _ _ C I H O Sf) as [S1 S2]. rewrite S in S1, S2.
    destruct (step c st' ev) as [st1' rs'] eqn:S'. cbn [fst snd] in S1, S2. subst rs'.
    specialize (IH _ _ _ _ I1 A S1).
    destruct (run c st1 evs) as [st2 tr]. destruct (run c st1' (without_others i evs)) as [st2' tr'].
    cbn [fst snd told filter] in *. rewrite O. destruct IH as [IH1 IH2]. split; [exact IH1|]. f_equal. exact IH2.
  - rewrite O, orb_true_r. cbn [run]. pose proof (same_both _ _ _ _ _ _ _ C I H O Sf) as S1. rewrite S in S1.
    destruct (step c st' ev) as [st1' rs'] eqn:S'. cbn [fst snd] in S1.
    specialize (IH _ _ _ _ I1 A S1).
    destruct (run c st1 evs) as [st2 tr]. destruct (run c st1' (without_others i evs)) as [st2' tr'].
    cbn [fst snd told filter] in *.
    assert (of_box i ev = false) as -> by (destruct ev; cbn in O |- *; congruence). exact IH.
  - rewrite O1, O2. cbn [orb].
    pose proof (same_drop _ _ _ _ _ _ _ _ _ _ C I H Oj Nj Sf S) as S1.
    specialize (IH _ _ _ _ I1 A S1).
    destruct (run c st1 evs) as [st2 tr]. cbn [fst snd told filter] in *. rewrite O1. exact IH.
Qed.

Lemma same_init c i : same_for c i init_state init_state.
Proof. constructor; try reflexivity; intros k; reflexivity. Qed.

(** ** Theorems *)

(** What sandbox i is told, and what the host is told about i's memory, is the
    same when the other sandboxes never send a request and the host never uses
    their memory. *)
Theorem memsvc_others_invisible : forall c evs i st tr st0 tr0,
  cfg_ok c -> hostile_history c evs ->
  run c init_state evs = (st, tr) ->
  run c init_state (without_others i evs) = (st0, tr0) ->
  told i tr = told i tr0.
Proof.
  intros c evs i st tr st0 tr0 C H E E0.
  destruct (same_run c i C evs init_state empty_book [] init_state (hinv_init c C) H (same_init c i)) as [_ T].
  rewrite E, E0 in T. exact T.
Qed.
Print Assumptions memsvc_others_invisible.

(** Two histories that agree on sandbox i and on which sandboxes come and go:
    i cannot tell them apart, neither by the replies nor by the part of the
    pagemap that describes its own memory. *)
Theorem memsvc_noninterference : forall c evs1 evs2 i st1 tr1 st2 tr2,
  cfg_ok c -> hostile_history c evs1 -> hostile_history c evs2 ->
  without_others i evs1 = without_others i evs2 ->
  run c init_state evs1 = (st1, tr1) -> run c init_state evs2 = (st2, tr2) ->
  told i tr1 = told i tr2 /\
  (forall r x, nth_error (regions (books tr1)) i = Some r -> r_live r = true ->
     r_start r <= x < r_end r -> g_pm st1 (x / chunk c) = g_pm st2 (x / chunk c)).
Proof.
  intros c evs1 evs2 i st1 tr1 st2 tr2 C H1 H2 E R1 R2.
  destruct (same_run c i C evs1 init_state empty_book [] init_state (hinv_init c C) H1 (same_init c i)) as [S1 T1].
  destruct (same_run c i C evs2 init_state empty_book [] init_state (hinv_init c C) H2 (same_init c i)) as [S2 T2].
  rewrite <- E in S2, T2. rewrite R1 in S1, T1. rewrite R2 in S2, T2. cbn [fst snd] in *.
  split; [congruence|]. intros r x Hr Lr Hx.
  pose proof (hostile_inv c evs1 st1 tr1 C H1 R1) as I1.
  pose proof (hostile_inv c evs2 st2 tr2 C H2 R2) as I2.
  destruct (book_region_box _ _ _ _ _ (H_layout _ _ _ _ I1) Hr) as (b & Hb & ->).
  cbn [box_region r_live r_start] in *. unfold r_end in Hx. cbn [box_region r_start r_bits] in Hx.
  pose proof (S_box _ _ _ _ S1) as B1. pose proof (S_box _ _ _ _ S2) as B2. rewrite Hb in B1. rewrite <- B1 in B2.
  assert (Own : forall st bk (L : layout c st bk), nth_error (g_box st) i = Some b ->
            forall j b2, j <> i -> nth_error (g_box st) j = Some b2 -> b_live b2 = true -> ~ inside b2 x).
  { intros st bk L Hi j b2 Nj Hj Lj Hx2.
    destruct (L_apart _ _ _ L i j b b2 Hi Hj Lr Lj (fun e => Nj (eq_sym e))) as [X|X];
      unfold inside, region_size in *; lia. }
  rewrite (S_pm _ _ _ _ S1 x) by (eapply Own; [exact (H_layout _ _ _ _ I1)|exact Hb]).
  rewrite (S_pm _ _ _ _ S2 x) by (eapply Own; [exact (H_layout _ _ _ _ I2)|exact B2]).
  reflexivity.
Qed.
Print Assumptions memsvc_noninterference.

(** The hypotheses are met: two sandboxes ask for memory in turn, the host uses
    the memory of the second; the first is told the same as when it is alone,
    although the pagemaps differ. *)
Definition busy_ex : list event :=
  [EvCreate ex_base 18; EvCreate (ex_base + 2 ^ 18) 18;
   EvReq 1 (alloc_rq 4); EvReq 0 (alloc_rq 2); EvHostAlloc 1 ck 0x7f0040004000 0x5000;
   EvReq 1 (free_rq 2 1); EvReq 0 (free_rq 2 2); EvReq 0 (free_rq 2 2); EvReq 0 (free_rq 20 1)].

Example busy_ex_ok : hostile_history ex_cfg busy_ex.
Proof.
  unfold hostile_history, busy_ex, alloc_rq, free_rq.
  nextev.
  { cbn [hostile_ok fresh_region]. unfold fresh_region, ex_base, W.
    cbn [cbits ex_cfg]. repeat split; try lia.
    - exists (0x7f0040000000 / 2 ^ 18). reflexivity.
    - intros r []. }
  nextev.
  { cbn [hostile_ok fresh_region]. unfold fresh_region, ex_base, W.
    cbn [cbits ex_cfg]. repeat split; try lia.
    - exists (0x7f0040000000 / 2 ^ 18 + 1). reflexivity.
    - intros r [<-|[]] _. left. vm_compute. discriminate. }
  do 2 (nextev; [words|]).
  nextev. { split; [apply (ck_size 14); [cbn; lia|reflexivity]|]. split; [exists 0x500; reflexivity|lia]. }
  do 4 (nextev; [words|]). exact Logic.I.
Qed.

Example quiet_ex_ok : hostile_history ex_cfg (without_others 0 busy_ex).
Proof.
  unfold hostile_history, busy_ex, alloc_rq, free_rq. cbn [without_others filter of_box comes_or_goes orb Nat.eqb].
  nextev.
  { cbn [hostile_ok fresh_region]. unfold fresh_region, ex_base, W.
    cbn [cbits ex_cfg]. repeat split; try lia.
    - exists (0x7f0040000000 / 2 ^ 18). reflexivity.
    - intros r []. }
  nextev.
  { cbn [hostile_ok fresh_region]. unfold fresh_region, ex_base, W.
    cbn [cbits ex_cfg]. repeat split; try lia.
    - exists (0x7f0040000000 / 2 ^ 18 + 1). reflexivity.
    - intros r [<-|[]] _. left. vm_compute. discriminate. }
  do 4 (nextev; [words|]). exact Logic.I.
Qed.

Example noninterference_example :
  without_others 0 busy_ex = without_others 0 (without_others 0 busy_ex) /\
  (length (without_others 0 busy_ex) < length busy_ex)%nat /\
  map (fun er => rs_error (snd er)) (told 0 (snd (run ex_cfg init_state busy_ex))) = [0; 0; 4; 1] /\
  map (fun er => rs_ret (snd er)) (told 0 (snd (run ex_cfg init_state busy_ex))) = [ex_base + 2 * ck; 0; 0; 0] /\
  told 0 (snd (run ex_cfg init_state busy_ex)) = told 0 (snd (run ex_cfg init_state (without_others 0 busy_ex))) /\
  g_pm (fst (run ex_cfg init_state busy_ex)) ((ex_base + 2 ^ 18 + 4 * ck) / ck)
    <> g_pm (fst (run ex_cfg init_state (without_others 0 busy_ex))) ((ex_base + 2 ^ 18 + 4 * ck) / ck).
Proof.
  split; [reflexivity|]. split; [vm_compute; repeat constructor|].
  split; [vm_compute; reflexivity|]. split; [vm_compute; reflexivity|]. split; [vm_compute; reflexivity|].
  vm_compute. discriminate.
Qed.
