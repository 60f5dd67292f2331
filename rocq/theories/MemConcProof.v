(** Invariant of concurrent executions of the memory service and of the host's
    chunk allocator. *)
From Coq Require Import List ZArith Bool Lia.
From Verif Require Import Base RegionModel RegionSpec RegionProof BuddyModel BuddyProof
  MemSvcModel MemSvcSpec MemSvcProof MemSvcProps MemConcModel MemConcSpec.
Import ListNotations.
Open Scope Z_scope.

(** The block an operation has between the instant that takes it and the
    return, or between the call and the instant that gives it back, and its
    owner ([Nobody]: not only one). *)
Definition claim (c : cfg) (op : event) (p : pc) : option (Z * Z * who) :=
  match op with
  | EvReq _ rq =>
    match p with
    | PMark _ _ _ r => Some (rs_ret r, rq_0 rq, Sandbox)
    | PUnmark _ _ | PGiveBack => Some (rq_0 rq, rq_1 rq, Sandbox)
    | PDone r => if (rs_error r =? 0) && (rq_kind rq =? 0)
                 then Some (rs_ret r, rq_0 rq, Sandbox) else None
    | _ => None
    end
  | EvHostAlloc _ size _ _ =>
    match p with
    | PMark _ _ _ r => Some (rs_ret r, size, Host)
    | PDone r => if rs_error r =? 0 then Some (rs_ret r, size, Host) else None
    | _ => None
    end
  | EvHostFree _ a size =>
    match p with
    | PStart | PUnmark _ _ | PGiveBack => Some (a, size, Host)
    | _ => None
    end
  | EvCreate _ _ => None
  | EvDestroy _ =>
    match p with
    | PClear base top _ =>
      Some (base / chunk c * chunk c, top - base / chunk c * chunk c, Nobody)
    | _ => None
    end
  end.

Definition claims (c : cfg) (op : event) (p : pc) (x : Z) : Prop :=
  exists a n w, claim c op p = Some (a, n, w) /\ a <= x < a + n.
Definition claimed (c : cfg) (f : nat -> option (event * pc)) (t : nat) (x : Z) : Prop :=
  exists op p, f t = Some (op, p) /\ claims c op p x.

(** The entry in the pagemap against the entry if the operation were atomic. *)
Definition view (c : cfg) (p : pc) (x : Z) (F S : entry) : Prop :=
  match p with
  | PMark a _ e _ => if x <? a then F = S else assign F e = S /\ is_sandbox_owned F = false
  | PUnmark a _ => if x <? a then F = assign S (backend_entry c) else F = S
  | PGiveBack => F = assign S (backend_entry c)
  | PClear _ _ a => if x <? a / chunk c * chunk c then F = assign S empty_entry else F = S
  | _ => F = S
  end.

(** A loop over the chunks of [A, A + size) that has [n] chunks left from [a]. *)
Definition at_chunk (c : cfg) (A size a : Z) (n : nat) : Prop :=
  (chunk c | A) /\ (chunk c | a) /\ chunk_size c size /\ A <= a /\
  a + Z.of_nat n * chunk c = A + size.

Definition dealloc_valid (c : cfg) (st : gstate) (i : nat) (rq : request) : Prop :=
  rq_kind rq = 1 /\
  exists b, nth_error (g_box st) i = Some b /\ b_live b = true /\
    contains (box_heap c b) (rq_0 rq) (rq_1 rq) = true /\
    is_pow2 (rq_1 rq) && (chunk c <=? rq_1 rq) = true /\
    (align_down (rq_0 rq) (chunk c) =? rq_0 rq) = true.

Definition box_live (st : gstate) (i : nat) : Prop :=
  exists b, nth_error (g_box st) i = Some b /\ b_live b = true.

Definition in_box_x (b : sbx) (x : Z) : Prop := b_shm b <= x < b_shm b + region_size b.

Definition pcok (c : cfg) (S : gstate) (bk : book) (h : Z -> who) (op : event) (p : pc) : Prop :=
  match op with
  | EvReq i rq =>
    request_words rq /\ (rq_kind rq = 1 -> (rq_1 rq | rq_0 rq)) /\
    match p with
    | PStart => rq_kind rq = 1 -> forall x, rq_0 rq <= x < rq_0 rq + rq_1 rq -> h x <> Sandbox
    | PCheck a n =>
      dealloc_valid c S i rq /\ at_chunk c (rq_0 rq) (rq_1 rq) a n /\
      (forall x, rq_0 rq <= x < a -> owner bk x = Sandbox) /\
      (forall x, rq_0 rq <= x < rq_0 rq + rq_1 rq -> h x <> Sandbox)
    | PMark a n e r => at_chunk c (rs_ret r) (rq_0 rq) a n /\ rs_error r = 0 /\ rq_kind rq = 0
    | PUnmark a n => dealloc_valid c S i rq /\ at_chunk c (rq_0 rq) (rq_1 rq) a n
    | PGiveBack => dealloc_valid c S i rq
    | PClear _ _ _ => False
    | PDone _ => True
    end
  | EvHostAlloc _ size _ mp =>
    (chunk_size c size /\ (16 | mp) /\ 0 <= mp) /\
    match p with
    | PStart => True
    | PMark a n e r => at_chunk c (rs_ret r) size a n /\ rs_error r = 0
    | PDone _ => True
    | _ => False
    end
  | EvHostFree i A size =>
    match p with
    | PDone _ => True
    | _ => chunk_size c size /\ (size | A) /\ in_region bk i A size
    end /\
    match p with
    | PStart | PGiveBack | PDone _ => True
    | PUnmark a n => at_chunk c A size a n
    | _ => False
    end
  | EvCreate _ _ => match p with PStart | PDone _ => True | _ => False end
  | EvDestroy i =>
    match p with
    | PStart => exists b, nth_error (g_box S) i = Some b /\ b_live b = true /\
                          forall x, in_box_x b x -> h x = Nobody
    | PClear base top a =>
      exists b k, nth_error (g_box S) i = Some b /\ b_live b = true /\
        base = b_shm b + hdr_size c /\ top = b_shm b + region_size b /\
        0 <= k /\ a = base + k * chunk c
    | PDone _ => True
    | _ => False
    end
  end.

Definition stat (o : option (event * pc)) : status :=
  match o with
  | None => SIdle
  | Some (op, PMark _ _ _ r) => SCommitted op r
  | Some (op, PDone r) => SCommitted op r
  | Some (op, _) => SPending op
  end.

Definition is_req (op : event) : bool := match op with EvReq _ _ => true | _ => false end.

Record J (c : cfg) (cs : cstate) (S : gstate) (bk : book)
  (s : nat -> status) (h : Z -> who) : Prop := {
  J_inv : inv c S bk;
  J_box : g_box (c_mem cs) = g_box S;
  J_stat : forall t, s t = stat (c_thr cs t);
  J_svc : forall t op p, c_thr cs t = Some (op, p) -> is_req op = Nat.eqb t 0;
  J_pc : forall t op p, c_thr cs t = Some (op, p) -> pcok c S bk h op p;
  J_own : forall t op p a n w x, c_thr cs t = Some (op, p) -> claim c op p = Some (a, n, w) ->
          a <= x < a + n -> (w <> Nobody -> owner bk x = w) /\ h x = Nobody;
  J_reg : forall t op p x, c_thr cs t = Some (op, p) -> claims c op p x ->
          exists i b, op_box op = Some i /\ nth_error (g_box S) i = Some b /\ b_live b = true /\ in_box_x b x;
  J_excl : forall t u i p op1 p1, c_thr cs t = Some (EvDestroy i, p) -> u <> t ->
           c_thr cs u = Some (op1, p1) -> op_box op1 <> Some i;
  J_disj : forall t u x, t <> u -> claimed c (c_thr cs) t x -> claimed c (c_thr cs) u x -> False;
  J_hold : forall x, h x <> Nobody -> owner bk x = h x;
  J_view : forall t op p x, c_thr cs t = Some (op, p) -> claims c op p x ->
           view c p x (g_pm (c_mem cs) (x / chunk c)) (g_pm S (x / chunk c));
  J_free : forall x, (forall t, ~ claimed c (c_thr cs) t x) ->
           g_pm (c_mem cs) (x / chunk c) = g_pm S (x / chunk c) }.

Lemma set_thr_same f t v : set_thr f t v t = v.
Proof. unfold set_thr. rewrite Nat.eqb_refl. reflexivity. Qed.
Lemma set_thr_other f t v u : u <> t -> set_thr f t v u = f u.
Proof. intros H. unfold set_thr. apply Nat.eqb_neq in H. rewrite H. reflexivity. Qed.

Definition is_destroy (op : event) : bool := match op with EvDestroy _ => true | _ => false end.

Lemma claim_who c op p a n w : claim c op p = Some (a, n, w) ->
  w = if is_req op then Sandbox else if is_destroy op then Nobody else Host.
Proof.
  destruct op as [i rq|i sz ras mp|i A sz|sh bi|i], p; cbn; try discriminate;
    repeat match goal with |- context [if ?b then _ else _] => destruct b end;
    try discriminate; intros E; injection E as <- <- <-; reflexivity.
Qed.

Lemma claims_dec c op p x : claims c op p x \/ ~ claims c op p x.
Proof.
  unfold claims. destruct (claim c op p) as [[[a n] w]|].
  - destruct (Z_le_gt_dec a x) as [A|A]; [destruct (Z_lt_ge_dec x (a + n)) as [B|B]|].
    + left. exists a, n, w. auto.
    + right. intros (? & ? & ? & E & ?). injection E as <- <- <-. lia.
    + right. intros (? & ? & ? & E & ?). injection E as <- <- <-. lia.
  - right. intros (? & ? & ? & E & _). discriminate.
Qed.

(** Boxes keep their regions. *)
Definition keeps (bk bk' : book) (i : nat) : Prop :=
  forall r, nth_error (regions bk) i = Some r -> nth_error (regions bk') i = Some r.

Lemma same_box c S bk S' bk' i b :
  layout c S bk -> layout c S' bk' -> keeps bk bk' i ->
  nth_error (g_box S) i = Some b ->
  exists b', nth_error (g_box S') i = Some b' /\ b_shm b' = b_shm b /\ b_bits b' = b_bits b /\
             b_live b' = b_live b.
Proof.
  intros L L' R Hi. pose proof (L_book _ _ _ L) as B. pose proof (L_book _ _ _ L') as B'.
  assert (E : nth_error (map box_region (g_box S')) i = Some (box_region b)).
  { rewrite B'. apply R. rewrite <- B, nth_error_map, Hi. reflexivity. }
  rewrite nth_error_map in E. destruct (nth_error (g_box S') i) as [b'|]; [|discriminate].
  cbn in E. exists b'. split; [reflexivity|]. unfold box_region in E. injection E as E1 E2 E3. auto.
Qed.

Lemma same_heap c b b' : b_shm b' = b_shm b -> b_bits b' = b_bits b -> box_heap c b' = box_heap c b.
Proof. intros A B. unfold box_heap, region_size. rewrite A, B. reflexivity. Qed.

Lemma same_x b b' x : b_shm b' = b_shm b -> b_bits b' = b_bits b -> in_box_x b' x <-> in_box_x b x.
Proof. intros A B. unfold in_box_x, region_size. rewrite A, B. tauto. Qed.

Lemma dealloc_valid_move c S bk S' bk' i rq :
  layout c S bk -> layout c S' bk' -> keeps bk bk' i ->
  dealloc_valid c S i rq -> dealloc_valid c S' i rq.
Proof.
  intros L L' R (K & b & Hi & Lv & V1 & V2 & V3).
  destruct (same_box _ _ _ _ _ _ _ L L' R Hi) as (b' & Hi' & E1 & E2 & E3).
  split; [exact K|]. exists b'. rewrite (same_heap c b b' E1 E2), E3. auto.
Qed.

Lemma in_region_move bk bk' i a n : keeps bk bk' i -> in_region bk i a n -> in_region bk' i a n.
Proof. intros K (r & Hr & Rest). exists r. split; [apply K; exact Hr|exact Rest]. Qed.

(** The facts about another thread survive changes outside its bytes. *)
Lemma pcok_move c S bk S' bk' h op p :
  layout c S bk -> layout c S' bk' -> (forall i, op_box op = Some i -> keeps bk bk' i) ->
  (forall i rq a n, op = EvReq i rq -> p = PCheck a n -> dealloc_valid c S i rq ->
     forall x, rq_0 rq <= x < rq_0 rq + rq_1 rq -> owner bk x = Sandbox -> owner bk' x = Sandbox) ->
  pcok c S bk h op p -> pcok c S' bk' h op p.
Proof.
  intros L L' R O. destruct op as [i rq|i sz ras mp|i A sz|sh bi|i]; cbn [pcok op_box] in *; auto;
    try (specialize (R i eq_refl)).
  - intros (W1 & W2 & H). split; [exact W1|]. split; [exact W2|].
    destruct p; auto.
    + destruct H as (H1 & H2 & H3 & H4). split; [exact (dealloc_valid_move c S bk S' bk' i rq L L' R ltac:(assumption))|].
      split; [exact H2|]. split; [|exact H4]. intros x Hx. apply (O i rq a n); auto.
      destruct H2 as (_ & _ & Hs & _ & E). assert (0 <= Z.of_nat n * chunk c)
        by (apply Z.mul_nonneg_nonneg; [lia|pose proof (chunk_pos c); lia]). lia.
    + destruct H as (H1 & H2). split; [exact (dealloc_valid_move c S bk S' bk' i rq L L' R ltac:(assumption))|exact H2].
    + exact (dealloc_valid_move c S bk S' bk' i rq L L' R ltac:(assumption)).
  - intros (H & K). split; [|exact K]. destruct p; auto;
      destruct H as (H1 & H2 & H3); (split; [exact H1|split; [exact H2|eapply in_region_move; eauto]]).
  - destruct p; auto.
    + intros (b & Hi & Lv & Hh). destruct (same_box _ _ _ _ _ _ _ L L' R Hi) as (b' & Hi' & E1 & E2 & E3).
      exists b'. split; [exact Hi'|]. split; [congruence|]. intros x Hx. apply Hh.
      apply (same_x b b'); auto.
    + intros (b & k & Hi & Lv & E4 & E5 & Rest).
      destruct (same_box _ _ _ _ _ _ _ L L' R Hi) as (b' & Hi' & E1 & E2 & E3).
      exists b', k. split; [exact Hi'|]. split; [congruence|]. unfold region_size in *.
      rewrite E1, E2. auto.
Qed.

(** ** Who can claim a byte of a library *)

Lemma one_box c S bk i j b b' x : layout c S bk ->
  nth_error (g_box S) i = Some b -> b_live b = true -> in_box_x b x ->
  nth_error (g_box S) j = Some b' -> b_live b' = true -> in_box_x b' x -> i = j /\ b = b'.
Proof.
  intros L Hi Li Xi Hj Lj Xj. destruct (Nat.eq_dec i j) as [->|Ne]; [split; congruence|].
  pose proof (L_apart _ _ _ L i j b b' Hi Hj Li Lj Ne) as A. unfold apart, in_box_x in *. lia.
Qed.

(** Another thread inside an operation on the same library owns what it
    claims. *)
Lemma other_claim c cs S bk s h t op p i b x u :
  J c cs S bk s h -> c_thr cs t = Some (op, p) -> op_box op = Some i ->
  nth_error (g_box S) i = Some b -> b_live b = true -> in_box_x b x ->
  u <> t -> claimed c (c_thr cs) u x ->
  owner bk x = (if Nat.eqb u 0 then Sandbox else Host) /\ is_destroy op = false.
Proof.
  intros I Ht Eo Hi Lv Hx Ne (op1 & p1 & E1 & a & n & w & Ec & Ha).
  destruct (J_reg _ _ _ _ _ _ I u op1 p1 x E1) as (j & b' & Ej & Hj & Lj & Xj).
  { exists a, n, w. auto. }
  destruct (one_box _ _ _ _ _ _ _ _ (I_layout _ _ _ (J_inv _ _ _ _ _ _ I)) Hi Lv Hx Hj Lj Xj) as [<- <-].
  split.
  - assert (Nd : is_destroy op1 = false).
    { destruct op1; try reflexivity. cbn in Ej. injection Ej as ->.
      destruct (J_excl _ _ _ _ _ _ I _ _ _ _ _ _ E1 (not_eq_sym Ne) Ht Eo). }
    pose proof (claim_who _ _ _ _ _ _ Ec) as W. rewrite (J_svc _ _ _ _ _ _ I _ _ _ E1), Nd in W.
    destruct (J_own _ _ _ _ _ _ I _ _ _ _ _ _ _ E1 Ec Ha) as [O _].
    rewrite <- W. apply O. rewrite W. destruct (Nat.eqb u 0); discriminate.
  - destruct op; try reflexivity. cbn in Eo. injection Eo as ->.
    destruct (J_excl _ _ _ _ _ _ I _ _ _ _ _ _ Ht Ne E1 Ej).
Qed.

Lemma dealloc_box c S bk i rq x : cfg_ok c -> layout c S bk ->
  dealloc_valid c S i rq -> rq_0 rq <= x < rq_0 rq + rq_1 rq -> request_words rq ->
  exists b, nth_error (g_box S) i = Some b /\ b_live b = true /\ in_box_x b x.
Proof.
  intros C L (K & b & Hi & Lv & V & _) Hx (W0 & W1 & _). exists b. split; [exact Hi|]. split; [exact Lv|].
  apply box_contains in V; auto; [|exact (L_ok _ _ _ L i b Hi Lv)].
  destruct C as (_ & C2 & _). unfold in_box_x. lia.
Qed.

(** A program thread's claim has no byte of the block that the service thread
    is scanning and that belongs to a sandbox. *)
Lemma claim_scan c cs S bk s h t op p i rq a n x :
  cfg_ok c -> J c cs S bk s h -> c_thr cs t = Some (op, p) -> claims c op p x -> t <> 0%nat ->
  c_thr cs 0%nat = Some (EvReq i rq, PCheck a n) -> rq_0 rq <= x < rq_0 rq + rq_1 rq ->
  owner bk x <> Sandbox.
Proof.
  intros C I Ht Cl Nt E0 Hx O. pose proof (J_pc _ _ _ _ _ _ I _ _ _ E0) as Pc. cbn [pcok] in Pc.
  destruct Pc as (W1 & _ & DV & _).
  destruct (dealloc_box _ _ _ _ _ _ C (I_layout _ _ _ (J_inv _ _ _ _ _ _ I)) DV Hx W1) as (b & Hi & Lv & Xb).
  destruct (other_claim c cs S bk s h 0%nat (EvReq i rq) (PCheck a n) i b x t I E0 eq_refl Hi Lv Xb Nt) as [O2 _].
  { exists op, p. auto. }
  apply Nat.eqb_neq in Nt. rewrite Nt in O2. congruence.
Qed.

(** ** One thread moves *)

Lemma J_update c cs S bk s h t op p F' p' S' bk' s' (B : Z -> Prop) :
  (forall x, B x \/ ~ B x) ->
  J c cs S bk s h -> c_thr cs t = Some (op, p) ->
  inv c S' bk' ->
  (forall u op1 p1 i, u <> t -> c_thr cs u = Some (op1, p1) -> op_box op1 = Some i -> keeps bk bk' i) ->
  g_box F' = g_box S' ->
  (forall x, ~ B x -> owner bk' x = owner bk x /\
     g_pm S' (x / chunk c) = g_pm S (x / chunk c) /\
     g_pm F' (x / chunk c) = g_pm (c_mem cs) (x / chunk c)) ->
  (forall x u, B x -> u <> t -> ~ claimed c (c_thr cs) u x) ->
  (t <> 0%nat -> forall i rq a n x, c_thr cs 0%nat = Some (EvReq i rq, PCheck a n) ->
     rq_0 rq <= x < rq_0 rq + rq_1 rq -> B x -> owner bk x <> Sandbox) ->
  (forall x, B x -> h x = Nobody) ->
  pcok c S' bk' h op p' ->
  (forall a n w x, claim c op p' = Some (a, n, w) -> a <= x < a + n ->
     B x /\ (w <> Nobody -> owner bk' x = w)) ->
  (forall x, claims c op p' x ->
     exists i b, op_box op = Some i /\ nth_error (g_box S') i = Some b /\ b_live b = true /\ in_box_x b x) ->
  (forall x, claims c op p' x -> view c p' x (g_pm F' (x / chunk c)) (g_pm S' (x / chunk c))) ->
  (forall x, B x -> ~ claims c op p' x -> g_pm F' (x / chunk c) = g_pm S' (x / chunk c)) ->
  (forall x, claims c op p x -> B x) ->
  s' t = stat (Some (op, p')) -> (forall u, u <> t -> s' u = s u) ->
  J c (CState F' (set_thr (c_thr cs) t (Some (op, p')))) S' bk' s' h.
Proof.
  intros Bd I Ht I' Kp Bx Out Sep Snd Hn Pc Cl Rg Vw Un Old St1 St2.
  pose proof (I_layout _ _ _ (J_inv _ _ _ _ _ _ I)) as L.
  pose proof (I_layout _ _ _ I') as L'.
  assert (Mine : forall x, claimed c (set_thr (c_thr cs) t (Some (op, p'))) t x -> B x).
  { intros x (op1 & p1 & E & a & n & w & Ec & Hx). rewrite set_thr_same in E. injection E as <- <-.
    eapply Cl; eauto. }
  assert (Others : forall u x, u <> t -> claimed c (set_thr (c_thr cs) t (Some (op, p'))) u x ->
                   claimed c (c_thr cs) u x).
  { intros u x Ne (op1 & p1 & E & Q). rewrite set_thr_other in E by exact Ne. exists op1, p1. auto. }
  constructor; cbn [c_mem c_thr].
  - exact I'.
  - exact Bx.
  - intros u. destruct (Nat.eq_dec u t) as [->|Ne].
    + rewrite set_thr_same. exact St1.
    + rewrite set_thr_other by exact Ne. rewrite St2 by exact Ne. apply (J_stat _ _ _ _ _ _ I).
  - intros u op1 p1 E. destruct (Nat.eq_dec u t) as [->|Ne].
    + rewrite set_thr_same in E. injection E as <- <-. eapply (J_svc _ _ _ _ _ _ I); eauto.
    + rewrite set_thr_other in E by exact Ne. eapply (J_svc _ _ _ _ _ _ I); eauto.
  - intros u op1 p1 E. destruct (Nat.eq_dec u t) as [->|Ne].
    + rewrite set_thr_same in E. injection E as <- <-. exact Pc.
    + rewrite set_thr_other in E by exact Ne.
      apply (pcok_move c S bk S' bk'); auto; [eauto| |eapply (J_pc _ _ _ _ _ _ I); eauto].
      intros i rq a n -> -> DV x Hx Ox. pose proof (J_svc _ _ _ _ _ _ I _ _ _ E) as Rq.
      symmetry in Rq. apply Nat.eqb_eq in Rq. subst u.
      destruct (Bd x) as [Bx1|Bx1].
      * exfalso. apply (Snd ltac:(auto) i rq a n x E Hx Bx1 Ox).
      * destruct (Out x Bx1) as (-> & _). exact Ox.
  - intros u op1 p1 a n w x E Ec Hx. destruct (Nat.eq_dec u t) as [->|Ne].
    + rewrite set_thr_same in E. injection E as <- <-. destruct (Cl _ _ _ _ Ec Hx) as [B1 O1].
      split; [exact O1|]. apply Hn. exact B1.
    + rewrite set_thr_other in E by exact Ne.
      assert (~ B x).
      { intros B1. apply (Sep x u B1 Ne). exists op1, p1. split; [exact E|]. exists a, n, w. auto. }
      destruct (Out x H) as (-> & _). eapply (J_own _ _ _ _ _ _ I); eauto.
  - intros u op1 p1 x E Q. destruct (Nat.eq_dec u t) as [->|Ne].
    + rewrite set_thr_same in E. injection E as <- <-. apply Rg. exact Q.
    + rewrite set_thr_other in E by exact Ne.
      destruct (J_reg _ _ _ _ _ _ I u op1 p1 x E Q) as (i & b & Ei & Hi & Lv & Xb).
      destruct (same_box _ _ _ _ _ _ _ L L' (Kp u op1 p1 i Ne E Ei) Hi) as (b' & Hi' & E1 & E2 & E3).
      exists i, b'. split; [exact Ei|]. split; [exact Hi'|]. split; [congruence|]. apply (same_x b b'); auto.
  - intros u v i p1 op2 p2 E Ne E2. destruct (Nat.eq_dec u t) as [->|Nu].
    + rewrite set_thr_same in E. rewrite set_thr_other in E2 by exact Ne. injection E as -> <-.
      exact (J_excl _ _ _ _ _ _ I _ _ _ _ _ _ Ht Ne E2).
    + rewrite set_thr_other in E by exact Nu. destruct (Nat.eq_dec v t) as [->|Nv].
      * rewrite set_thr_same in E2. injection E2 as <- <-. exact (J_excl _ _ _ _ _ _ I _ _ _ _ _ _ E Ne Ht).
      * rewrite set_thr_other in E2 by exact Nv. exact (J_excl _ _ _ _ _ _ I _ _ _ _ _ _ E Ne E2).
  - intros u v x Ne Cu Cv. destruct (Nat.eq_dec u t) as [->|Nu].
    + apply (Sep x v (Mine x Cu)); auto.
    + destruct (Nat.eq_dec v t) as [->|Nv].
      * apply (Sep x u (Mine x Cv)); auto.
      * eapply (J_disj _ _ _ _ _ _ I u v x); auto.
  - intros x Hx. destruct (Bd x) as [B1|B1]; [rewrite (Hn x B1) in Hx; congruence|].
    destruct (Out x B1) as (-> & _). apply (J_hold _ _ _ _ _ _ I). exact Hx.
  - intros u op1 p1 x E Q. destruct (Nat.eq_dec u t) as [->|Ne].
    + rewrite set_thr_same in E. injection E as <- <-. apply Vw. exact Q.
    + rewrite set_thr_other in E by exact Ne.
      assert (~ B x) by (intros B1; apply (Sep x u B1 Ne); exists op1, p1; auto).
      destruct (Out x H) as (_ & -> & ->). eapply (J_view _ _ _ _ _ _ I); eauto.
  - intros x No. destruct (Bd x) as [B1|B1].
    + apply Un; [exact B1|]. intros Q. apply (No t). exists op, p'. rewrite set_thr_same. auto.
    + destruct (Out x B1) as (_ & -> & ->). apply (J_free _ _ _ _ _ _ I). intros u Q.
      destruct (Nat.eq_dec u t) as [->|Ne].
      * destruct Q as (op1 & p1 & E & Q). rewrite Ht in E. injection E as <- <-. apply B1, Old, Q.
      * apply (No u). destruct Q as (op1 & p1 & E & Q). exists op1, p1.
        rewrite set_thr_other by exact Ne. auto.
Qed.

(** ** Chunks in the middle of a loop *)

Lemma pm_set_byte c pm a e x : (chunk c | a) ->
  pm_set pm (a / chunk c) e (x / chunk c)
  = if inblk a (chunk c) x then assign (pm (x / chunk c)) e else pm (x / chunk c).
Proof.
  intros [q ->]. pose proof (chunk_pos c) as P. unfold pm_set. rewrite Z.div_mul by lia.
  pose proof (byte_chunk c q 1 x) as B. unfold inblk.
  replace ((q + 1) * chunk c) with (q * chunk c + chunk c) in B by ring. rewrite <- B.
  destruct (Z.eqb_spec (x / chunk c) q) as [E|E].
  - rewrite E. destruct (Z.leb_spec q q); [|lia]. destruct (Z.ltb_spec q (q + 1)); [|lia]. reflexivity.
  - destruct (Z.leb_spec q (x / chunk c)), (Z.ltb_spec (x / chunk c) (q + 1)); cbn [andb]; try reflexivity; lia.
Qed.

Lemma at_chunk_init c A size : (chunk c | A) -> chunk_size c size ->
  at_chunk c A size A (chunk_steps c size).
Proof.
  intros D Hs. unfold at_chunk. split; [exact D|]. split; [exact D|]. split; [exact Hs|]. split; [lia|].
  destruct (chunk_size_mult c size Hs) as (m & Hm & ->). rewrite chunk_steps_mult by lia.
  rewrite Z2Nat.id by lia. reflexivity.
Qed.

Lemma at_chunk_next c A size a n : at_chunk c A size a (S n) ->
  at_chunk c A size (a + chunk c) n /\ A <= a /\ a + chunk c <= A + size.
Proof.
  intros (D1 & D2 & Hs & Le & E). pose proof (chunk_pos c).
  assert (0 <= Z.of_nat n * chunk c) by (apply Z.mul_nonneg_nonneg; lia).
  rewrite Nat2Z.inj_succ, Z.mul_succ_l in E.
  split; [|lia]. unfold at_chunk. split; [exact D1|]. split.
  - apply Z.divide_add_r; [exact D2|]. apply Z.divide_refl.
  - split; [exact Hs|]. lia.
Qed.

Lemma at_chunk_end c A size a : at_chunk c A size a 0 -> a = A + size.
Proof. intros (_ & _ & _ & _ & E). cbn in E. lia. Qed.

Lemma chunk_size_pos c size : chunk_size c size -> 0 < size.
Proof. intros (n & Hn & ->). apply Z.pow_pos_nonneg; lia. Qed.

Lemma natural_chunk c a size : chunk_size c size -> (size | a) -> (chunk c | a).
Proof.
  intros (n & Hn & ->) D. apply Z.divide_trans with (2 ^ n); [|exact D].
  apply divide_pow2. lia.
Qed.

Lemma inblk_dec a n x : a <= x < a + n \/ ~ (a <= x < a + n).
Proof. lia. Qed.

Lemma backend_not_owned c : is_sandbox_owned (backend_entry c) = false.
Proof. reflexivity. Qed.

(** ** Initial state *)

Lemma J_init c bk0 st0 : inv c st0 bk0 ->
  J c (idle_state st0) st0 bk0 (fun _ => SIdle) (owner bk0).
Proof.
  intros I. constructor; cbn; auto; try discriminate.
  intros t u x _ (op & p & E & _). discriminate.
Qed.

(** ** Reading an entry while others are in the middle of an operation *)

Lemma view_marked c p x F S : view c p x F S ->
  is_sandbox_owned F = true -> is_sandbox_owned S = true.
Proof.
  destruct p; cbn [view]; try (intros ->; auto; fail).
  - destruct (x <? a); [intros ->; auto|]. intros [_ E] H. congruence.
  - destruct (x <? a); [|intros ->; auto]. intros -> H. rewrite assign_owned in H. discriminate.
  - intros -> H. rewrite assign_owned in H. discriminate.
  - destruct (x <? a / chunk c * chunk c); [|intros ->; auto]. intros -> H. rewrite assign_owned in H. discriminate.
Qed.

(** A byte that nobody owns, or that the service thread's check is about, is
    in no other thread's block. *)
Lemma nobody_unclaimed c cs S bk s h t op p i b x : J c cs S bk s h ->
  c_thr cs t = Some (op, p) -> op_box op = Some i -> claim c op p = None ->
  nth_error (g_box S) i = Some b -> b_live b = true -> in_box_x b x ->
  owner bk x = Nobody -> forall u, ~ claimed c (c_thr cs) u x.
Proof.
  intros I Ht Eo N Hi Lv Hx O u Q. destruct (Nat.eq_dec u t) as [->|Ne].
  - destruct Q as (op1 & p1 & E & a & n & w & Ec & _). rewrite Ht in E. injection E as <- <-. congruence.
  - destruct (other_claim _ _ _ _ _ _ _ _ _ _ _ _ _ I Ht Eo Hi Lv Hx Ne Q) as [O2 _].
    rewrite O in O2. destruct (Nat.eqb u 0); discriminate.
Qed.

Lemma sandbox_not_claimed_by_host c cs S bk s h i b op p x u : J c cs S bk s h ->
  c_thr cs 0%nat = Some (op, p) -> op_box op = Some i ->
  nth_error (g_box S) i = Some b -> b_live b = true -> in_box_x b x ->
  owner bk x = Sandbox -> u <> 0%nat -> ~ claimed c (c_thr cs) u x.
Proof.
  intros I Ht Eo Hi Lv Hx O Nu Q.
  destruct (other_claim _ _ _ _ _ _ _ _ _ _ _ _ _ I Ht Eo Hi Lv Hx Nu Q) as [O2 _].
  apply Nat.eqb_neq in Nu. rewrite Nu in O2. congruence.
Qed.

Definition no_claim (c : cfg) (op : event) (p : pc) : Prop := forall x, ~ claims c op p x.

Lemma no_claim_none c op p : claim c op p = None -> no_claim c op p.
Proof. intros E x (a & n & w & E2 & _). congruence. Qed.

Lemma check_true c cs S bk s h op p i b x :
  J c cs S bk s h -> c_thr cs 0%nat = Some (op, p) -> no_claim c op p ->
  op_box op = Some i -> nth_error (g_box S) i = Some b -> b_live b = true -> in_box_x b x ->
  is_sandbox_owned (g_pm S (x / chunk c)) = true ->
  is_sandbox_owned (g_pm (c_mem cs) (x / chunk c)) = true.
Proof.
  intros I E N Eo Hi Lv Hx H. rewrite (J_free _ _ _ _ _ _ I); [exact H|].
  intros u Q. apply (I_mark _ _ _ (J_inv _ _ _ _ _ _ I)) in H.
  destruct (Nat.eq_dec u 0) as [->|Nu].
  - destruct Q as (op1 & p1 & E1 & Q). rewrite E in E1. injection E1 as <- <-. exact (N x Q).
  - exact (sandbox_not_claimed_by_host _ _ _ _ _ _ _ _ _ _ _ _ I E Eo Hi Lv Hx H Nu Q).
Qed.

Lemma check_reads c cs S bk s h op p i b x :
  J c cs S bk s h -> c_thr cs 0%nat = Some (op, p) -> no_claim c op p ->
  op_box op = Some i -> nth_error (g_box S) i = Some b -> b_live b = true -> in_box_x b x ->
  is_sandbox_owned (g_pm (c_mem cs) (x / chunk c)) = is_sandbox_owned (g_pm S (x / chunk c)).
Proof.
  intros I E N Eo Hi Lv Hx. destruct (is_sandbox_owned (g_pm S (x / chunk c))) eqn:H.
  - eapply check_true; eauto.
  - destruct (is_sandbox_owned (g_pm (c_mem cs) (x / chunk c))) eqn:G; [|reflexivity].
    assert (U : forall u, ~ claimed c (c_thr cs) u x).
    { intros u (op1 & p1 & E1 & Q). pose proof (J_view _ _ _ _ _ _ I _ _ _ _ E1 Q) as V.
      rewrite (view_marked _ _ _ _ _ V G) in H. discriminate. }
    rewrite (J_free _ _ _ _ _ _ I x U) in G. congruence.
Qed.

(** ** Steps that are not the instant of their operation *)

Lemma set_status_same s t v : set_status s t v t = v.
Proof. unfold set_status. rewrite Nat.eqb_refl. reflexivity. Qed.
Lemma set_status_other s t v u : u <> t -> set_status s t v u = s u.
Proof. intros H. unfold set_status. apply Nat.eqb_neq in H. rewrite H. reflexivity. Qed.

(** The thread moves on without touching shared data and without claims. *)
Lemma J_plain c cs S bk s h t op p p' s' :
  J c cs S bk s h -> c_thr cs t = Some (op, p) ->
  no_claim c op p -> claim c op p' = None -> pcok c S bk h op p' ->
  s' t = stat (Some (op, p')) -> (forall u, u <> t -> s' u = s u) ->
  J c (CState (c_mem cs) (set_thr (c_thr cs) t (Some (op, p')))) S bk s' h.
Proof.
  intros I Ht N N' Pc S1 S2.
  apply (J_update c cs S bk s h t op p (c_mem cs) p' S bk s' (fun _ => False)); auto;
    try tauto.
  - exact (J_inv _ _ _ _ _ _ I).
  - intros u op1 p1 i _ _ _ r Hr. exact Hr.
  - exact (J_box _ _ _ _ _ _ I).
  - intros a n w x E. congruence.
  - intros x Q. destruct (no_claim_none _ _ _ N' x Q).
  - intros x Q. destruct (no_claim_none _ _ _ N' x Q).
Qed.

(** The thread moves on inside its block: shared data outside the block and
    the atomic state stay as they are. *)
Lemma J_inside c cs S bk s h t op p p' pm' A n w :
  cfg_ok c -> J c cs S bk s h -> c_thr cs t = Some (op, p) ->
  claim c op p = Some (A, n, w) -> claim c op p' = Some (A, n, w) ->
  stat (Some (op, p')) = stat (Some (op, p)) ->
  pcok c S bk h op p' ->
  (forall x, ~ (A <= x < A + n) -> pm' (x / chunk c) = g_pm (c_mem cs) (x / chunk c)) ->
  (forall x, A <= x < A + n -> view c p' x (pm' (x / chunk c)) (g_pm S (x / chunk c))) ->
  J c (CState (GState pm' (g_box (c_mem cs))) (set_thr (c_thr cs) t (Some (op, p')))) S bk s h.
Proof.
  intros C I Ht C1 C2 St Pc Out Vw.
  assert (Cl : forall x, A <= x < A + n -> claims c op p x) by (intros x Hx; exists A, n, w; auto).
  apply (J_update c cs S bk s h t op p _ p' S bk s (fun x => A <= x < A + n)); auto.
  - intros x. apply inblk_dec.
  - exact (J_inv _ _ _ _ _ _ I).
  - intros u op1 p1 i _ _ _ r Hr. exact Hr.
  - exact (J_box _ _ _ _ _ _ I).
  - intros x u Bx Ne Q. apply (J_disj _ _ _ _ _ _ I u t x Ne Q).
    exists op, p. split; [exact Ht|]. auto.
  - intros Nt i rq a m x E0 Hx Bx.
    exact (claim_scan c cs S bk s h t op p i rq a m x C I Ht (Cl x Bx) Nt E0 Hx).
  - intros x Bx. eapply (J_own _ _ _ _ _ _ I); eauto.
  - intros a m v x E Hx. rewrite C2 in E. injection E as <- <- <-. split; [exact Hx|].
    eapply (J_own _ _ _ _ _ _ I); eauto.
  - intros x (a & m & v & E & Hx). rewrite C2 in E. injection E as <- <- <-.
    eapply (J_reg _ _ _ _ _ _ I); eauto.
  - intros x (a & m & v & E & Hx). rewrite C2 in E. injection E as <- <- <-. cbn [g_pm]. auto.
  - intros x Bx Q. destruct Q. exists A, n, w. auto.
  - intros x (a & m & v & E & Hx). rewrite C1 in E. injection E as <- <- <-. exact Hx.
  - rewrite St, <- Ht. apply (J_stat _ _ _ _ _ _ I).
Qed.

Lemma mark_step c cs S bk s h t op a n e r A size w :
  cfg_ok c -> J c cs S bk s h -> c_thr cs t = Some (op, PMark a (Datatypes.S n) e r) ->
  claim c op (PMark a (Datatypes.S n) e r) = Some (A, size, w) ->
  at_chunk c A size a (Datatypes.S n) ->
  pcok c S bk h op (PMark (a + chunk c) n e r) ->
  J c (CState (GState (pm_set (g_pm (c_mem cs)) (a / chunk c) e) (g_box (c_mem cs)))
                  (set_thr (c_thr cs) t (Some (op, PMark (a + chunk c) n e r)))) S bk s h.
Proof.
  intros C I Ht Cl At Pc. destruct (at_chunk_next _ _ _ _ _ At) as (_ & L1 & L2).
  assert (Da : (chunk c | a)) by apply At.
  eapply J_inside; eauto.
  - intros x Hx. rewrite pm_set_byte by exact Da.
    destruct (inblk a (chunk c) x) eqn:Q; [apply inblk_true in Q; lia|reflexivity].
  - intros x Hx. rewrite pm_set_byte by exact Da.
    assert (V : view c (PMark a (Datatypes.S n) e r) x (g_pm (c_mem cs) (x / chunk c)) (g_pm S (x / chunk c))).
    { eapply (J_view _ _ _ _ _ _ I); eauto. exists A, size, w. auto. }
    cbn [view] in V |- *. unfold inblk. pose proof (chunk_pos c).
    destruct (Z.ltb_spec x a), (Z.ltb_spec x (a + chunk c)), (Z.leb_spec a x); try lia; cbn [andb]; auto.
    apply V.
Qed.

Lemma unmark_step c cs S bk s h t op a n A size w :
  cfg_ok c -> J c cs S bk s h -> c_thr cs t = Some (op, PUnmark a (Datatypes.S n)) ->
  claim c op (PUnmark a (Datatypes.S n)) = Some (A, size, w) ->
  at_chunk c A size a (Datatypes.S n) ->
  pcok c S bk h op (PUnmark (a + chunk c) n) ->
  J c (CState (GState (pm_set (g_pm (c_mem cs)) (a / chunk c) (backend_entry c)) (g_box (c_mem cs)))
                  (set_thr (c_thr cs) t (Some (op, PUnmark (a + chunk c) n)))) S bk s h.
Proof.
  intros C I Ht Cl At Pc. destruct (at_chunk_next _ _ _ _ _ At) as (_ & L1 & L2).
  assert (Da : (chunk c | a)) by apply At.
  eapply J_inside; eauto.
  - intros x Hx. rewrite pm_set_byte by exact Da.
    destruct (inblk a (chunk c) x) eqn:Q; [apply inblk_true in Q; lia|reflexivity].
  - intros x Hx. rewrite pm_set_byte by exact Da.
    assert (V : view c (PUnmark a (Datatypes.S n)) x (g_pm (c_mem cs) (x / chunk c)) (g_pm S (x / chunk c))).
    { eapply (J_view _ _ _ _ _ _ I); eauto. exists A, size, w. auto. }
    cbn [view] in V |- *. unfold inblk. pose proof (chunk_pos c).
    destruct (Z.ltb_spec x a), (Z.ltb_spec x (a + chunk c)), (Z.leb_spec a x); try lia; cbn [andb]; auto.
    rewrite V. reflexivity.
Qed.

Lemma gstate_same st : GState (g_pm st) (g_box st) = st.
Proof. destruct st; reflexivity. Qed.

Lemma mark_end c cs S bk s h t op a e r A size w :
  cfg_ok c -> J c cs S bk s h -> c_thr cs t = Some (op, PMark a 0 e r) ->
  claim c op (PMark a 0 e r) = Some (A, size, w) -> claim c op (PDone r) = Some (A, size, w) ->
  at_chunk c A size a 0 -> pcok c S bk h op (PDone r) ->
  J c (CState (c_mem cs) (set_thr (c_thr cs) t (Some (op, PDone r)))) S bk s h.
Proof.
  intros C I Ht Cl Cl2 At Pc. apply at_chunk_end in At.
  rewrite <- (gstate_same (c_mem cs)). eapply J_inside; eauto.
  intros x Hx.
  assert (V : view c (PMark a 0 e r) x (g_pm (c_mem cs) (x / chunk c)) (g_pm S (x / chunk c))).
  { eapply (J_view _ _ _ _ _ _ I); eauto. exists A, size, w. auto. }
  cbn [view] in V |- *. destruct (Z.ltb_spec x a); [exact V|lia].
Qed.

Lemma unmark_end c cs S bk s h t op a A size w :
  cfg_ok c -> J c cs S bk s h -> c_thr cs t = Some (op, PUnmark a 0) ->
  claim c op (PUnmark a 0) = Some (A, size, w) -> claim c op PGiveBack = Some (A, size, w) ->
  at_chunk c A size a 0 -> pcok c S bk h op PGiveBack ->
  J c (CState (c_mem cs) (set_thr (c_thr cs) t (Some (op, PGiveBack)))) S bk s h.
Proof.
  intros C I Ht Cl Cl2 At Pc. apply at_chunk_end in At.
  rewrite <- (gstate_same (c_mem cs)). eapply J_inside; eauto.
  intros x Hx.
  assert (V : view c (PUnmark a 0) x (g_pm (c_mem cs) (x / chunk c)) (g_pm S (x / chunk c))).
  { eapply (J_view _ _ _ _ _ _ I); eauto. exists A, size, w. auto. }
  cbn [view] in V |- *. destruct (Z.ltb_spec x a); [exact V|lia].
Qed.

(** ** The instant of an allocation *)

Lemma take_commit c cs S bk s h t op i b size e w a free' S' bk' :
  cfg_ok c ->
  J c cs S bk s h -> c_thr cs t = Some (op, PStart) -> op_box op = Some i -> claim c op PStart = None ->
  nth_error (g_box S) i = Some b -> b_live b = true -> chunk_size c size ->
  alloc_range (b_free b) size = Some (a, free') ->
  (w = if is_req op then Sandbox else Host) ->
  (is_sandbox_owned e = true <-> w = Sandbox) ->
  claim c op (PMark a (chunk_steps c size) e (Response 0 a)) = Some (a, size, w) ->
  S' = GState (set_metaentry c (g_pm S) a size e)
              (upd i (Sbx (b_shm b) (b_bits b) free' (b_live b)) (g_box S)) ->
  bk' = Book (set_owner (owner bk) a size w) (regions bk) ->
  (at_chunk c a size a (chunk_steps c size) ->
   pcok c S' bk' h op (PMark a (chunk_steps c size) e (Response 0 a))) ->
  J c (CState (GState (g_pm (c_mem cs))
                     (upd i (Sbx (b_shm b) (b_bits b) free' (b_live b)) (g_box (c_mem cs))))
                  (set_thr (c_thr cs) t (Some (op, PMark a (chunk_steps c size) e (Response 0 a)))))
    S' bk' (set_status s t (SCommitted op (Response 0 a))) h.
Proof.
  intros C I Ht Eo Cl0 Hi Lv Hs Al Hw He Cl ES EB Pc.
  assert (Hw0 : w <> Nobody) by (rewrite Hw; destruct (is_req op); discriminate).
  destruct (inv_take c S bk i b size a free' e w C (J_inv _ _ _ _ _ _ I) Hi Lv Hs Al Hw0 He)
    as (D & B1 & B2 & Nob & I').
  rewrite <- ES, <- EB in I'.
  assert (Dc : (chunk c | a)) by (eapply natural_chunk; eauto).
  pose proof (chunk_pos c) as Pc0.
  assert (Xb : forall x, a <= x < a + size -> in_box_x b x) by (intros x Hx; unfold in_box_x; lia).
  assert (Sp : forall x, g_pm S' (x / chunk c)
             = if inblk a size x then assign (g_pm S (x / chunk c)) e else g_pm S (x / chunk c)).
  { intros x. rewrite ES. cbn [g_pm]. apply set_metaentry_spec; auto. }
  assert (Ow : forall x, owner bk' x = if inblk a size x then w else owner bk x).
  { intros x. rewrite EB. reflexivity. }
  apply (J_update c cs S bk s h t op PStart _ _ S' bk' _ (fun x => a <= x < a + size)); auto.
  - intros x. apply inblk_dec.
  - rewrite EB. intros u op1 p1 j _ _ _ r Hr. exact Hr.
  - rewrite ES. cbn [g_box]. rewrite (J_box _ _ _ _ _ _ I). reflexivity.
  - intros x Nx. rewrite Sp, Ow. destruct (inblk a size x) eqn:Q; [apply inblk_true in Q; lia|auto].
  - intros x u Bx _. eapply (nobody_unclaimed c cs S bk); eauto.
  - intros _ j rq a1 n1 x _ _ Bx. rewrite (Nob x Bx). discriminate.
  - intros x Bx. destruct (h x) eqn:Hh; auto; exfalso;
      pose proof (J_hold _ _ _ _ _ _ I x ltac:(congruence)) as O; rewrite (Nob x Bx) in O; congruence.
  - apply Pc. apply at_chunk_init; auto.
  - intros a1 n1 w1 x E Hx. rewrite Cl in E. injection E as <- <- <-. split; [exact Hx|].
    intros _. rewrite Ow. apply inblk_true in Hx. rewrite Hx. reflexivity.
  - intros x (a1 & n1 & w1 & E & Hx). rewrite Cl in E. injection E as <- <- <-.
    exists i. eexists. split; [exact Eo|]. rewrite ES. cbn [g_box].
    split; [apply (upd_same _ _ _ _ Hi)|]. cbn [b_live]. split; [exact Lv|]. exact (Xb x Hx).
  - intros x (a1 & n1 & w1 & E & Hx). rewrite Cl in E. injection E as <- <- <-. cbn [view g_pm].
    destruct (Z.ltb_spec x a); [lia|]. rewrite Sp.
    pose proof (proj2 (inblk_true a size x) Hx) as Q. rewrite Q.
    rewrite (J_free _ _ _ _ _ _ I x (nobody_unclaimed _ _ _ _ _ _ _ _ _ _ _ _ I Ht Eo Cl0 Hi Lv (Xb x Hx) (Nob x Hx))).
    split; [reflexivity|].
    destruct (is_sandbox_owned (g_pm S (x / chunk c))) eqn:M; [|reflexivity].
    apply (I_mark _ _ _ (J_inv _ _ _ _ _ _ I)) in M. rewrite (Nob x Hx) in M. discriminate.
  - intros x Bx Q. destruct Q. exists a, size, w. auto.
  - intros x Q. destruct (no_claim_none _ _ _ Cl0 x Q).
  - rewrite set_status_same. reflexivity.
  - intros u Ne. apply set_status_other. exact Ne.
Qed.

(** ** The instant of a free *)

Lemma give_commit c cs S bk s h t op i b A size w S' bk' :
  cfg_ok c -> J c cs S bk s h -> c_thr cs t = Some (op, PGiveBack) ->
  claim c op PGiveBack = Some (A, size, w) -> claim c op (PDone (Response 0 0)) = None ->
  op_box op = Some i -> op_block op = (A, size) ->
  nth_error (g_box S) i = Some b -> (chunk c | A) -> chunk_size c size ->
  S' = GState (set_metaentry c (g_pm S) A size (backend_entry c))
              (upd i (Sbx (b_shm b) (b_bits b) (dealloc_range (b_free b) A size) (b_live b)) (g_box S)) ->
  bk' = Book (set_owner (owner bk) A size Nobody) (regions bk) ->
  inv c S' bk' -> pcok c S' bk' h op (PDone (Response 0 0)) ->
  exists F', give_step (c_mem cs) op = (F', PDone (Response 0 0)) /\
  J c (CState F' (set_thr (c_thr cs) t (Some (op, PDone (Response 0 0)))))
    S' bk' (set_status s t (SCommitted op (Response 0 0))) h.
Proof.
  intros C I Ht Cl Cl' Ei Eb Hi Dc Hs ES EB I' Pc.
  unfold give_step. rewrite Ei, Eb, (J_box _ _ _ _ _ _ I), Hi. cbn [fst snd].
  eexists. split; [reflexivity|].
  assert (Sp : forall x, g_pm S' (x / chunk c)
             = if inblk A size x then assign (g_pm S (x / chunk c)) (backend_entry c)
               else g_pm S (x / chunk c)).
  { intros x. rewrite ES. cbn [g_pm]. apply set_metaentry_spec; auto. }
  assert (Ow : forall x, owner bk' x = if inblk A size x then Nobody else owner bk x).
  { intros x. rewrite EB. reflexivity. }
  apply (J_update c cs S bk s h t op PGiveBack _ _ S' bk' _ (fun x => A <= x < A + size)); auto.
  - intros x. apply inblk_dec.
  - rewrite EB. intros u op1 p1 j _ _ _ r Hr. exact Hr.
  - rewrite ES. cbn [g_box]. reflexivity.
  - intros x Nx. rewrite Sp, Ow. destruct (inblk A size x) eqn:Q; [apply inblk_true in Q; lia|auto].
  - intros x u Bx Ne Q. apply (J_disj _ _ _ _ _ _ I u t x Ne Q).
    exists op, PGiveBack. split; [exact Ht|]. exists A, size, w. auto.
  - intros Nt j rq a1 n1 x E0 Hx Bx.
    refine (claim_scan c cs S bk s h t op PGiveBack j rq a1 n1 x C I Ht _ Nt E0 Hx). exists A, size, w. auto.
  - intros x Bx. eapply (J_own _ _ _ _ _ _ I); eauto.
  - intros a1 n1 w1 x E. congruence.
  - intros x Q. destruct (no_claim_none _ _ _ Cl' x Q).
  - intros x Q. destruct (no_claim_none _ _ _ Cl' x Q).
  - intros x Bx _. cbn [g_pm]. rewrite Sp. pose proof (proj2 (inblk_true A size x) Bx) as Q. rewrite Q.
    pose proof (J_view _ _ _ _ _ _ I t op PGiveBack x Ht) as V. cbn [view] in V. apply V.
    exists A, size, w. auto.
  - intros x (a1 & n1 & w1 & E & Hx). rewrite Cl in E. injection E as <- <- <-. exact Hx.
  - rewrite set_status_same. reflexivity.
  - intros u Ne. apply set_status_other. exact Ne.
Qed.

(** ** Creation and destruction *)

Lemma create_commit c cs S bk s h t shm bits :
  cfg_ok c -> J c cs S bk s h -> c_thr cs t = Some (EvCreate shm bits, PStart) ->
  fresh_region c bk shm bits ->
  J c (CState (GState (g_pm (c_mem cs)) (g_box (c_mem cs) ++ [new_box c shm bits]))
              (set_thr (c_thr cs) t (Some (EvCreate shm bits, PDone (Response 0 0)))))
    (GState (g_pm S) (g_box S ++ [new_box c shm bits]))
    (Book (owner bk) (regions bk ++ [Region shm bits true]))
    (set_status s t (SCommitted (EvCreate shm bits) (Response 0 0))) h.
Proof.
  intros C I Ht Fr.
  apply (J_update c cs S bk s h t (EvCreate shm bits) PStart _ _ _ _ _ (fun _ => False)); auto; try tauto.
  - apply inv_create; auto. exact (J_inv _ _ _ _ _ _ I).
  - intros u op1 p1 i _ _ _ r Hr. cbn [regions]. rewrite nth_error_app1; [exact Hr|].
    apply nth_error_Some. congruence.
  - cbn [g_box]. rewrite (J_box _ _ _ _ _ _ I). reflexivity.
  - cbn [pcok]. exact Logic.I.
  - intros a n w x E. discriminate.
  - intros x (a & n & w & E & _). discriminate.
  - intros x (a & n & w & E & _). discriminate.
  - intros x (a & n & w & E & _). discriminate.
  - rewrite set_status_same. reflexivity.
  - intros u Ne. apply set_status_other. exact Ne.
Qed.

(** Where the loop of the destructor is. *)
Lemma clear_at c b k : cfg_ok c -> region_ok c (b_shm b) (b_bits b) ->
  (b_shm b + hdr_size c + k * chunk c) / chunk c * chunk c = b_shm b + k * chunk c /\
  (chunk c | b_shm b) /\
  (b_shm b + hdr_size c + k * chunk c < b_shm b + region_size b <->
   b_shm b + k * chunk c + chunk c <= b_shm b + region_size b).
Proof.
  intros C R. destruct (destroy_steps c _ _ C R) as (_ & D2 & D3 & D4).
  destruct C as (C1 & C2 & C3 & _). pose proof (chunk_pos c) as P.
  rewrite div_shift, D2. split; [rewrite Z.mul_add_distr_r, <- D4; reflexivity|].
  split; [exists (b_shm b / chunk c); exact D4|].
  unfold region_size. rewrite D3. set (m := 2 ^ Z.of_nat (b_bits b) / chunk c). split; intros H.
  - assert (k < m) by (apply Z.mul_lt_mono_pos_r with (chunk c); lia).
    assert ((k + 1) * chunk c <= m * chunk c) by (apply Z.mul_le_mono_nonneg_r; lia). lia.
  - lia.
Qed.

Lemma clear_end c b k : cfg_ok c -> region_ok c (b_shm b) (b_bits b) ->
  region_size b <= hdr_size c + k * chunk c -> region_size b <= k * chunk c.
Proof.
  intros C R. destruct (destroy_steps c _ _ C R) as (_ & _ & D3 & _).
  destruct C as (C1 & C2 & C3 & _). pose proof (chunk_pos c) as P.
  unfold region_size. rewrite D3. set (m := 2 ^ Z.of_nat (b_bits b) / chunk c). intros H.
  assert (m < k + 1) by (apply Z.mul_lt_mono_pos_r with (chunk c); lia).
  apply Z.mul_le_mono_nonneg_r; lia.
Qed.

Lemma clear_claim c b a : cfg_ok c -> region_ok c (b_shm b) (b_bits b) ->
  claim c (EvDestroy 0) (PClear (b_shm b + hdr_size c) (b_shm b + region_size b) a)
  = Some (b_shm b, region_size b, Nobody).
Proof.
  intros C R. cbn [claim]. destruct (clear_at c b 0 C R) as (E & _). rewrite Z.mul_0_l, !Z.add_0_r in E.
  rewrite E. repeat f_equal. lia.
Qed.

Lemma box_heap_eq c b : cfg_ok c -> region_ok c (b_shm b) (b_bits b) ->
  h_base (box_heap c b) = b_shm b + hdr_size c /\ h_top (box_heap c b) = b_shm b + region_size b.
Proof.
  intros C R. unfold box_heap. rewrite library_heap_eq by (apply region_mapping; auto).
  split; reflexivity.
Qed.

(** Nobody else is inside the library that is being destroyed. *)
Lemma destroyer_alone c cs S bk s h t i p b x u : J c cs S bk s h ->
  c_thr cs t = Some (EvDestroy i, p) -> nth_error (g_box S) i = Some b -> b_live b = true ->
  in_box_x b x -> u <> t -> ~ claimed c (c_thr cs) u x.
Proof.
  intros I Ht Hi Lv Hx Ne Q.
  destruct (other_claim _ _ _ _ _ _ _ _ _ _ _ _ _ I Ht eq_refl Hi Lv Hx Ne Q) as [_ D]. discriminate.
Qed.

Lemma destroyer_scan c cs S bk s h t i p b j rq a n x : cfg_ok c -> J c cs S bk s h ->
  c_thr cs t = Some (EvDestroy i, p) -> nth_error (g_box S) i = Some b -> b_live b = true ->
  t <> 0%nat -> c_thr cs 0%nat = Some (EvReq j rq, PCheck a n) -> rq_0 rq <= x < rq_0 rq + rq_1 rq ->
  ~ in_box_x b x.
Proof.
  intros C I Ht Hi Lv Nt E0 Hx Xb. pose proof (J_pc _ _ _ _ _ _ I _ _ _ E0) as Pc. cbn [pcok] in Pc.
  destruct Pc as (W1 & _ & DV & _). pose proof (I_layout _ _ _ (J_inv _ _ _ _ _ _ I)) as L.
  destruct (dealloc_box _ _ _ _ _ _ C L DV Hx W1) as (b' & Hj & Lj & Xj).
  destruct (one_box _ _ _ _ _ _ _ _ L Hi Lv Xb Hj Lj Xj) as [<- _].
  exact (J_excl _ _ _ _ _ _ I _ _ _ _ _ _ Ht (not_eq_sym Nt) E0 eq_refl).
Qed.

Lemma inbox_dec b x : in_box_x b x \/ ~ in_box_x b x.
Proof. unfold in_box_x. lia. Qed.

Lemma clear_start c cs S bk s h t i b : cfg_ok c -> J c cs S bk s h ->
  c_thr cs t = Some (EvDestroy i, PStart) -> nth_error (g_box S) i = Some b -> b_live b = true ->
  (forall x, in_box_x b x -> h x = Nobody) ->
  J c (CState (c_mem cs) (set_thr (c_thr cs) t (Some (EvDestroy i,
         PClear (h_base (box_heap c b)) (h_top (box_heap c b)) (h_base (box_heap c b)))))) S bk s h.
Proof.
  intros C I Ht Hi Lv Hn. pose proof (I_layout _ _ _ (J_inv _ _ _ _ _ _ I)) as L.
  pose proof (L_ok _ _ _ L i b Hi Lv) as R. destruct (box_heap_eq c b C R) as [-> ->].
  pose proof (fun a => clear_claim c b a C R) as Cl. cbn [claim] in Cl.
  destruct (clear_at c b 0 C R) as (E0 & _). rewrite Z.mul_0_l, !Z.add_0_r in E0.
  apply (J_update c cs S bk s h t (EvDestroy i) PStart _ _ _ _ _ (in_box_x b)); auto.
  - intros x. apply inbox_dec.
  - exact (J_inv _ _ _ _ _ _ I).
  - intros u op1 p1 j _ _ _ r Hr. exact Hr.
  - exact (J_box _ _ _ _ _ _ I).
  - intros x u Bx Ne. eapply destroyer_alone; eauto.
  - intros Nt j rq a n x E Hx Bx. destruct (destroyer_scan c cs S bk s h t i PStart b j rq a n x); auto.
  - cbn [pcok]. exists b, 0. split; [exact Hi|]. split; [exact Lv|]. split; [reflexivity|].
    split; [reflexivity|]. lia.
  - intros a n w x E Hx. cbn [claim] in E. rewrite (Cl 0) in E. injection E as <- <- <-.
    split; [exact Hx|congruence].
  - intros x (a & n & w & E & Hx). cbn [claim] in E. rewrite (Cl 0) in E. injection E as <- <- <-.
    exists i, b. auto.
  - intros x (a & n & w & E & Hx). cbn [claim] in E. rewrite (Cl 0) in E. injection E as <- <- <-.
    cbn [view]. rewrite E0. destruct (Z.ltb_spec x (b_shm b)); [lia|].
    apply (J_free _ _ _ _ _ _ I). intros u Q. destruct (Nat.eq_dec u t) as [->|Ne].
    + destruct Q as (op1 & p1 & E1 & Q). rewrite Ht in E1. injection E1 as <- <-.
      destruct Q as (? & ? & ? & E1 & _). discriminate.
    + exact (destroyer_alone _ _ _ _ _ _ _ _ _ _ _ _ I Ht Hi Lv Hx Ne Q).
  - intros x Bx N. destruct N. exists (b_shm b), (region_size b), Nobody. cbn [claim]. rewrite (Cl 0). auto.
  - intros x (a & n & w & E & _). discriminate.
  - rewrite (J_stat _ _ _ _ _ _ I), Ht. reflexivity.
Qed.

Lemma clear_step c cs S bk s h t i base top a : cfg_ok c -> J c cs S bk s h ->
  c_thr cs t = Some (EvDestroy i, PClear base top a) -> a < top ->
  J c (CState (GState (pm_set (g_pm (c_mem cs)) (a / chunk c) empty_entry) (g_box (c_mem cs)))
              (set_thr (c_thr cs) t (Some (EvDestroy i, PClear base top (a + chunk c))))) S bk s h.
Proof.
  intros C I Ht Lt. pose proof (J_pc _ _ _ _ _ _ I _ _ _ Ht) as Pc. cbn [pcok] in Pc.
  destruct Pc as (b & k & Hi & Lv & -> & -> & Pk & ->).
  pose proof (I_layout _ _ _ (J_inv _ _ _ _ _ _ I)) as L.
  pose proof (L_ok _ _ _ L i b Hi Lv) as R. pose proof (chunk_pos c) as P.
  pose proof (fun a => clear_claim c b a C R) as Cl. cbn [claim] in Cl.
  destruct (clear_at c b k C R) as (E1 & [q Dq] & Lt2). apply Lt2 in Lt.
  destruct (clear_at c b (k + 1) C R) as (E2 & _ & _).
  replace (b_shm b + hdr_size c + (k + 1) * chunk c) with (b_shm b + hdr_size c + k * chunk c + chunk c) in E2 by ring.
  assert (Wr : forall x, pm_set (g_pm (c_mem cs)) ((b_shm b + hdr_size c + k * chunk c) / chunk c) empty_entry (x / chunk c)
    = if inblk (b_shm b + k * chunk c) (chunk c) x then assign (g_pm (c_mem cs) (x / chunk c)) empty_entry
      else g_pm (c_mem cs) (x / chunk c)).
  { intros x. rewrite <- pm_set_byte.
    - rewrite <- E1, Z.div_mul by lia. reflexivity.
    - exists (q + k). rewrite Dq. ring. }
  refine (J_inside c cs S bk s h t _ _
            (PClear _ _ (b_shm b + hdr_size c + k * chunk c + chunk c)) _
            (b_shm b) (region_size b) Nobody C I Ht (Cl 0) (Cl 0) eq_refl _ _ _).
  - cbn [pcok]. exists b, (k + 1). split; [exact Hi|]. split; [exact Lv|]. split; [reflexivity|].
    split; [reflexivity|]. split; [lia|ring].
  - intros x Hx. rewrite Wr. destruct (inblk _ _ x) eqn:Q; [apply inblk_true in Q; nia|reflexivity].
  - intros x Hx. rewrite Wr.
    pose proof (J_view _ _ _ _ _ _ I _ _ _ x Ht) as V. cbn [view] in V |- *.
    rewrite E1 in V. rewrite E2. 
    assert (V' : if x <? b_shm b + k * chunk c
        then g_pm (c_mem cs) (x / chunk c) = assign (g_pm S (x / chunk c)) empty_entry
        else g_pm (c_mem cs) (x / chunk c) = g_pm S (x / chunk c)).
    { apply V. exists (b_shm b), (region_size b), Nobody. cbn [claim]. rewrite (Cl 0). auto. }
    clear V. unfold inblk.
    replace (b_shm b + (k + 1) * chunk c) with (b_shm b + k * chunk c + chunk c) by ring.
    destruct (Z.ltb_spec x (b_shm b + k * chunk c)), (Z.ltb_spec x (b_shm b + k * chunk c + chunk c)),
      (Z.leb_spec (b_shm b + k * chunk c) x); try lia; cbn [andb]; auto.
    rewrite V'. reflexivity.
Qed.

Lemma gone_commit c cs S bk s h t i base top a : cfg_ok c -> J c cs S bk s h ->
  c_thr cs t = Some (EvDestroy i, PClear base top a) -> top <= a ->
  exists b F', nth_error (g_box S) i = Some b /\ b_live b = true /\
  (forall x, in_box_x b x -> claims c (EvDestroy i) (PClear base top a) x) /\
  gone_step (c_mem cs) (EvDestroy i) = (F', PDone (Response 0 0)) /\
  J c (CState F' (set_thr (c_thr cs) t (Some (EvDestroy i, PDone (Response 0 0)))))
    (GState (fst (library_destroy c (g_pm S) b))
            (upd i (Sbx (b_shm b) (b_bits b) (b_free b) false) (g_box S)))
    (Book (set_owner (owner bk) (b_shm b) (region_size b) Nobody)
          (upd i (Region (b_shm b) (b_bits b) false) (regions bk)))
    (set_status s t (SCommitted (EvDestroy i) (Response 0 0))) h.
Proof.
  intros C I Ht Ge. pose proof (J_pc _ _ _ _ _ _ I _ _ _ Ht) as Pc. cbn [pcok] in Pc.
  destruct Pc as (b & k & Hi & Lv & -> & -> & Pk & ->).
  pose proof (J_inv _ _ _ _ _ _ I) as Iv. pose proof (I_layout _ _ _ Iv) as L.
  pose proof (L_ok _ _ _ L i b Hi Lv) as R. pose proof (chunk_pos c) as P.
  pose proof (fun a => clear_claim c b a C R) as Cl. cbn [claim] in Cl.
  destruct (clear_at c b k C R) as (E1 & _ & Lt2).
  assert (Cx : forall x, in_box_x b x ->
    claims c (EvDestroy i) (PClear (b_shm b + hdr_size c) (b_shm b + region_size b)
                                   (b_shm b + hdr_size c + k * chunk c)) x).
  { intros x Hx. exists (b_shm b), (region_size b), Nobody. cbn [claim]. rewrite (Cl 0). auto. }
  exists b. eexists. split; [exact Hi|]. split; [exact Lv|]. split; [exact Cx|].
  unfold gone_step. cbn [op_box]. rewrite (J_box _ _ _ _ _ _ I), Hi. split; [reflexivity|].
  apply (J_update c cs S bk s h t (EvDestroy i) _ _ _ _ _ _ (in_box_x b)) with (2 := I) (3 := Ht); auto.
  - intros x. apply inbox_dec.
  - apply inv_kill; auto.
  - intros u op1 p1 j Ne Eu Ej r Hr. cbn [regions]. rewrite upd_other; [exact Hr|].
    intros <-. exact (J_excl _ _ _ _ _ _ I _ _ _ _ _ _ Ht Ne Eu Ej).
  - intros x Nx. cbn [owner g_pm]. rewrite set_owner_eq, library_destroy_pm by auto.
    destruct (inblk _ _ x) eqn:Q; [apply inblk_true in Q; destruct (Nx Q)|auto].
  - intros x u Bx Ne. eapply destroyer_alone; eauto.
  - intros Nt j rq a n x E Hx Bx.
    destruct (destroyer_scan c cs S bk s h t i _ b j rq a n x C I Ht Hi Lv Nt E Hx Bx).
  - intros x Bx. destruct (Cx x Bx) as (a & n & w & Ec & Hx). eapply (J_own _ _ _ _ _ _ I); eauto.
  - cbn [pcok]. exact Logic.I.
  - intros a n w x E. discriminate.
  - intros x (a & n & w & E & _). discriminate.
  - intros x (a & n & w & E & _). discriminate.
  - intros x Bx _. cbn [g_pm]. rewrite library_destroy_pm by auto.
    pose proof (proj2 (inblk_true (b_shm b) (region_size b) x) Bx) as Q. rewrite Q.
    pose proof (J_view _ _ _ _ _ _ I _ _ _ x Ht (Cx x Bx)) as V. cbn [view] in V. rewrite E1 in V.
    destruct (Z.ltb_spec x (b_shm b + k * chunk c)); [exact V|].
    exfalso. pose proof (clear_end c b k C R ltac:(lia)). unfold in_box_x in Bx. lia.
  - intros x (a & n & w & E & Hx). cbn [claim] in E. rewrite (Cl 0) in E. injection E as <- <- <-. exact Hx.
  - rewrite set_status_same. reflexivity.
  - intros u Ne. apply set_status_other. exact Ne.
Qed.

(** ** Calls and returns *)

Lemma pcok_hold c S bk h h' op p :
  (is_req op = true -> forall x, h' x = Sandbox -> h x = Sandbox) ->
  (forall i b x, op = EvDestroy i -> nth_error (g_box S) i = Some b -> b_live b = true -> in_box_x b x ->
     h x = Nobody -> h' x = Nobody) ->
  pcok c S bk h op p -> pcok c S bk h' op p.
Proof.
  intros H D. destruct op as [i rq|i sz ras mp|i A sz|sh bi|i]; cbn [pcok is_req] in *; auto.
  2:{ destruct p; auto. intros (b & Hi & Lv & Hh). exists b. split; [exact Hi|]. split; [exact Lv|].
      intros x Hx. eapply D; eauto. }
  intros (W1 & W2 & K). split; [exact W1|]. split; [exact W2|]. destruct p; auto.
  - intros Kd x Hx E. apply (K Kd x Hx). auto.
  - destruct K as (K1 & K2 & K3 & K4). split; [exact K1|]. split; [exact K2|]. split; [exact K3|].
    intros x Hx E. apply (K4 x Hx). auto.
Qed.

Lemma hold_call_shrinks st h t op x :
  hold_after st h (LCall t op) x = h x \/ hold_after st h (LCall t op) x = Nobody.
Proof.
  destruct op as [i rq|i sz ras mp|i A sz|sh bi|i]; cbn [hold_after]; auto.
  - destruct (rq_kind rq =? 1); auto. destruct ((rq_0 rq <=? x) && (x <? rq_0 rq + rq_1 rq)); auto.
    destruct (h x); auto.
  - unfold set_owner. destruct ((A <=? x) && (x <? A + sz)); auto.
  - rewrite set_owner_eq. destruct (inblk _ _ x); auto.
Qed.

Lemma J_call c cs S bk s h t op :
  J c cs S bk s h -> c_thr cs t = None -> call_ok c cs h t op ->
  J c (CState (c_mem cs) (set_thr (c_thr cs) t (Some (op, PStart)))) S bk
    (set_status s t (SPending op)) (hold_after (c_mem cs) h (LCall t op)).
Proof.
  intros I Ht Ok.
  assert (Blk : forall a n w x, claim c op PStart = Some (a, n, w) -> a <= x < a + n ->
            w = Host /\ h x = Host /\ hold_after (c_mem cs) h (LCall t op) x = Nobody).
  { intros a n w x E Hx. destruct op as [i rq|i sz ras mp|i A sz|sh bi|i]; cbn in E; try discriminate.
    injection E as <- <- <-. destruct Ok as (_ & _ & _ & _ & Hh & _). split; [reflexivity|].
    split; [auto|]. cbn [hold_after]. rewrite set_owner_eq. apply inblk_true in Hx. rewrite Hx. reflexivity. }
  assert (Unc : forall a n w x, claim c op PStart = Some (a, n, w) -> a <= x < a + n ->
            forall u, ~ claimed c (c_thr cs) u x).
  { intros a n w x E Hx u (op1 & p1 & E1 & a1 & n1 & w1 & Ec & Hx1).
    destruct (J_own _ _ _ _ _ _ I _ _ _ _ _ _ _ E1 Ec Hx1) as [_ N].
    destruct (Blk _ _ _ _ E Hx) as (_ & Hh & _). congruence. }
  assert (NewCl : forall u x, claimed c (set_thr (c_thr cs) t (Some (op, PStart))) u x ->
            (u = t /\ claims c op PStart x) \/ (u <> t /\ claimed c (c_thr cs) u x)).
  { intros u x (op1 & p1 & E & Q). destruct (Nat.eq_dec u t) as [->|Ne].
    - rewrite set_thr_same in E. injection E as <- <-. auto.
    - rewrite set_thr_other in E by exact Ne. right. split; [exact Ne|]. exists op1, p1. auto. }
  constructor; cbn [c_mem c_thr].
  - exact (J_inv _ _ _ _ _ _ I).
  - exact (J_box _ _ _ _ _ _ I).
  - intros u. destruct (Nat.eq_dec u t) as [->|Ne].
    + rewrite set_thr_same, set_status_same. reflexivity.
    + rewrite set_thr_other, set_status_other by exact Ne. apply (J_stat _ _ _ _ _ _ I).
  - intros u op1 p1 E. destruct (Nat.eq_dec u t) as [->|Ne].
    + rewrite set_thr_same in E. injection E as <- <-.
      destruct op; cbn [call_ok is_req] in *; symmetry;
        [apply Nat.eqb_eq|apply Nat.eqb_neq|apply Nat.eqb_neq|apply Nat.eqb_neq|apply Nat.eqb_neq];
        try apply Ok; exact Ok.
    + rewrite set_thr_other in E by exact Ne. eapply (J_svc _ _ _ _ _ _ I); eauto.
  - intros u op1 p1 E. destruct (Nat.eq_dec u t) as [->|Ne].
    + rewrite set_thr_same in E. injection E as <- <-.
      destruct op as [i rq|i sz ras mp|i A sz|sh bi|i]; cbn [call_ok pcok] in *.
      * destruct Ok as (_ & W1 & W2 & _). split; [exact W1|]. split; [exact W2|].
        intros K x Hx. cbn [hold_after]. rewrite K, Z.eqb_refl.
        destruct (Z.leb_spec (rq_0 rq) x), (Z.ltb_spec x (rq_0 rq + rq_1 rq)); try lia.
        cbn [andb]. destruct (h x); discriminate.
      * destruct Ok as (_ & O1 & O2 & _). auto.
      * destruct Ok as (_ & O1 & O2 & (b & Hi & Lv & B1 & B2) & _). split; [|exact Logic.I]. split; [exact O1|].
        split; [exact O2|]. rewrite (J_box _ _ _ _ _ _ I) in Hi. exists (box_region b).
        rewrite <- (L_book _ _ _ (I_layout _ _ _ (J_inv _ _ _ _ _ _ I))), nth_error_map, Hi. auto.
      * exact Logic.I.
      * destruct Ok as (_ & (b & Hi & Lv) & _). rewrite (J_box _ _ _ _ _ _ I) in Hi.
        exists b. split; [exact Hi|]. split; [exact Lv|]. intros x Hx. cbn [hold_after].
        unfold region_of. rewrite (J_box _ _ _ _ _ _ I), Hi. cbn [fst snd]. rewrite set_owner_eq.
        apply inblk_true in Hx. rewrite Hx. reflexivity.
    + rewrite set_thr_other in E by exact Ne.
      apply (pcok_hold c S bk h); [| |eapply (J_pc _ _ _ _ _ _ I); eauto].
      * intros _ x Hx. destruct (hold_call_shrinks (c_mem cs) h t op x); congruence.
      * intros i b x _ _ _ _ Hh. destruct (hold_call_shrinks (c_mem cs) h t op x); congruence.
  - intros u op1 p1 a n w x E Ec Hx. destruct (Nat.eq_dec u t) as [->|Ne].
    + rewrite set_thr_same in E. injection E as <- <-.
      destruct (Blk _ _ _ _ Ec Hx) as (-> & Hh & Hn). split; [|exact Hn].
      intros _. rewrite (J_hold _ _ _ _ _ _ I x) by congruence. exact Hh.
    + rewrite set_thr_other in E by exact Ne.
      destruct (J_own _ _ _ _ _ _ I _ _ _ _ _ _ _ E Ec Hx) as [O N]. split; [exact O|].
      destruct (hold_call_shrinks (c_mem cs) h t op x); congruence.
  - intros u op1 p1 x E Q. destruct (Nat.eq_dec u t) as [->|Ne].
    + rewrite set_thr_same in E. injection E as <- <-.
      destruct op as [i rq|i sz ras mp|i A sz|sh bi|i]; destruct Q as (a & n & w & Ec & Hx); try discriminate.
      injection Ec as <- <- <-. destruct Ok as (_ & _ & _ & (b & Hi & Lv & B1 & B2) & _).
      rewrite (J_box _ _ _ _ _ _ I) in Hi. exists i, b. split; [reflexivity|]. split; [exact Hi|].
      split; [exact Lv|]. unfold in_box_x. lia.
    + rewrite set_thr_other in E by exact Ne. eapply (J_reg _ _ _ _ _ _ I); eauto.
  - intros u v i p1 op2 p2 E Ne E2. destruct (Nat.eq_dec u t) as [->|Nu].
    + rewrite set_thr_same in E. rewrite set_thr_other in E2 by exact Ne. injection E as -> <-.
      destruct Ok as (_ & _ & U). exact (U v op2 p2 E2).
    + rewrite set_thr_other in E by exact Nu. destruct (Nat.eq_dec v t) as [->|Nv].
      * rewrite set_thr_same in E2. injection E2 as <- <-.
        destruct op as [j rq|j sz ras mp|j A sz|sh bi|j]; cbn [call_ok op_box] in Ok |- *; try discriminate;
          intros Ej; injection Ej as ->.
        -- destruct Ok as (_ & _ & _ & U). exact (U u p1 E).
        -- destruct Ok as (_ & _ & _ & U). exact (U u p1 E).
        -- destruct Ok as (_ & _ & _ & _ & _ & U). exact (U u p1 E).
        -- destruct Ok as (_ & _ & U). exact (U u _ p1 E eq_refl).
      * rewrite set_thr_other in E2 by exact Nv. exact (J_excl _ _ _ _ _ _ I _ _ _ _ _ _ E Ne E2).
  - intros u v x Ne Cu Cv. apply NewCl in Cu. apply NewCl in Cv.
    destruct Cu as [[-> (a & n & w & E & Hx)]|[Nu Cu]]; destruct Cv as [[-> (a2 & n2 & w2 & E2 & Hx2)]|[Nv Cv]].
    + congruence.
    + exact (Unc _ _ _ _ E Hx v Cv).
    + exact (Unc _ _ _ _ E2 Hx2 u Cu).
    + exact (J_disj _ _ _ _ _ _ I u v x Ne Cu Cv).
  - intros x Hx. destruct (hold_call_shrinks (c_mem cs) h t op x) as [E|E]; [|congruence].
    rewrite E in *. apply (J_hold _ _ _ _ _ _ I). exact Hx.
  - intros u op1 p1 x E Q. destruct (Nat.eq_dec u t) as [->|Ne].
    + rewrite set_thr_same in E. injection E as <- <-. cbn [view].
      destruct Q as (a & n & w & Ec & Hx). apply (J_free _ _ _ _ _ _ I). eapply Unc; eauto.
    + rewrite set_thr_other in E by exact Ne. eapply (J_view _ _ _ _ _ _ I); eauto.
  - intros x No. apply (J_free _ _ _ _ _ _ I). intros u (op1 & p1 & E & Q).
    destruct (Nat.eq_dec u t) as [->|Ne]; [congruence|].
    apply (No u). exists op1, p1. rewrite set_thr_other by exact Ne. auto.
Qed.

Lemma hold_ret_cases c st h t op r x :
  hold_after st h (LRet t op r) x = h x /\ ~ claims c op (PDone r) x \/
  exists a n w, claim c op (PDone r) = Some (a, n, w) /\ a <= x < a + n /\
                hold_after st h (LRet t op r) x = w.
Proof.
  destruct op as [i rq|i sz ras mp|i A sz|sh bi|i]; cbn [hold_after];
    unfold claims; cbn [claim].
  - destruct ((rs_error r =? 0) && (rq_kind rq =? 0)).
    + rewrite set_owner_eq. destruct (inblk (rs_ret r) (rq_0 rq) x) eqn:Q.
      * right. exists (rs_ret r), (rq_0 rq), Sandbox. apply inblk_true in Q. auto.
      * left. split; [reflexivity|]. intros (a & n & w & E & Hx). injection E as <- <- <-.
        apply inblk_true in Hx. congruence.
    + left. split; [reflexivity|]. intros (a & n & w & E & _). discriminate.
  - destruct (rs_error r =? 0).
    + rewrite set_owner_eq. destruct (inblk (rs_ret r) sz x) eqn:Q.
      * right. exists (rs_ret r), sz, Host. apply inblk_true in Q. auto.
      * left. split; [reflexivity|]. intros (a & n & w & E & Hx). injection E as <- <- <-.
        apply inblk_true in Hx. congruence.
    + left. split; [reflexivity|]. intros (a & n & w & E & _). discriminate.
  - left. split; [reflexivity|]. intros (a & n & w & E & _). discriminate.
  - left. split; [reflexivity|]. intros (a & n & w & E & _). discriminate.
  - left. split; [reflexivity|]. intros (a & n & w & E & _). discriminate.
Qed.

Lemma J_ret c cs S bk s h t op r :
  J c cs S bk s h -> c_thr cs t = Some (op, PDone r) ->
  J c (CState (c_mem cs) (set_thr (c_thr cs) t None)) S bk
    (set_status s t SIdle) (hold_after (c_mem cs) h (LRet t op r)).
Proof.
  intros I Ht.
  assert (NewCl : forall u x, claimed c (set_thr (c_thr cs) t None) u x ->
            u <> t /\ claimed c (c_thr cs) u x).
  { intros u x (op1 & p1 & E & Q). destruct (Nat.eq_dec u t) as [->|Ne].
    - rewrite set_thr_same in E. discriminate.
    - rewrite set_thr_other in E by exact Ne. split; [exact Ne|]. exists op1, p1. auto. }
  constructor; cbn [c_mem c_thr].
  - exact (J_inv _ _ _ _ _ _ I).
  - exact (J_box _ _ _ _ _ _ I).
  - intros u. destruct (Nat.eq_dec u t) as [->|Ne].
    + rewrite set_thr_same, set_status_same. reflexivity.
    + rewrite set_thr_other, set_status_other by exact Ne. apply (J_stat _ _ _ _ _ _ I).
  - intros u op1 p1 E. destruct (Nat.eq_dec u t) as [->|Ne].
    + rewrite set_thr_same in E. discriminate.
    + rewrite set_thr_other in E by exact Ne. eapply (J_svc _ _ _ _ _ _ I); eauto.
  - intros u op1 p1 E. destruct (Nat.eq_dec u t) as [->|Ne].
    + rewrite set_thr_same in E. discriminate.
    + rewrite set_thr_other in E by exact Ne.
      apply (pcok_hold c S bk h); [| |eapply (J_pc _ _ _ _ _ _ I); eauto].
      2:{ intros i b x -> Hi Lv Hx Hh.
          destruct (hold_ret_cases c (c_mem cs) h t op r x) as [[-> _]|(a & n & w & Ec & Ha & _)]; [exact Hh|].
          exfalso. apply (destroyer_alone c cs S bk s h u i p1 b x t I E Hi Lv Hx (not_eq_sym Ne)).
          exists op, (PDone r). split; [exact Ht|]. exists a, n, w. auto. }
      intros Rq x Hx. rewrite (J_svc _ _ _ _ _ _ I _ _ _ E) in Rq. apply Nat.eqb_eq in Rq. subst u.
      destruct (hold_ret_cases c (c_mem cs) h t op r x) as [[-> _]|(a & n & w & Ec & _ & Ew)] in Hx; [exact Hx|].
      exfalso. rewrite Ew in Hx. rewrite (claim_who _ _ _ _ _ _ Ec), (J_svc _ _ _ _ _ _ I _ _ _ Ht) in Hx.
      destruct (Nat.eqb_spec t 0); [congruence|]. destruct (is_destroy op); discriminate.
  - intros u op1 p1 a n w x E Ec Hx. destruct (Nat.eq_dec u t) as [->|Ne].
    + rewrite set_thr_same in E. discriminate.
    + rewrite set_thr_other in E by exact Ne.
      destruct (J_own _ _ _ _ _ _ I _ _ _ _ _ _ _ E Ec Hx) as [O N]. split; [exact O|].
      destruct (hold_ret_cases c (c_mem cs) h t op r x) as [[-> _]|(a1 & n1 & w1 & Ec1 & Hx1 & _)]; [exact N|].
      exfalso. apply (J_disj _ _ _ _ _ _ I u t x Ne).
      * exists op1, p1. split; [exact E|]. exists a, n, w. auto.
      * exists op, (PDone r). split; [exact Ht|]. exists a1, n1, w1. auto.
  - intros u op1 p1 x E Q. destruct (Nat.eq_dec u t) as [->|Ne].
    + rewrite set_thr_same in E. discriminate.
    + rewrite set_thr_other in E by exact Ne. eapply (J_reg _ _ _ _ _ _ I); eauto.
  - intros u v i p1 op2 p2 E Ne E2. unfold set_thr in E, E2.
    destruct (Nat.eqb u t); [discriminate|]. destruct (Nat.eqb v t); [discriminate|].
    exact (J_excl _ _ _ _ _ _ I _ _ _ _ _ _ E Ne E2).
  - intros u v x Ne Cu Cv. apply NewCl in Cu as [_ Cu]. apply NewCl in Cv as [_ Cv].
    exact (J_disj _ _ _ _ _ _ I u v x Ne Cu Cv).
  - intros x Hx. destruct (hold_ret_cases c (c_mem cs) h t op r x) as [[E _]|(a1 & n1 & w1 & Ec1 & Hx1 & E)];
      rewrite E in *.
    + apply (J_hold _ _ _ _ _ _ I). exact Hx.
    + eapply (J_own _ _ _ _ _ _ I); eauto.
  - intros u op1 p1 x E Q. destruct (Nat.eq_dec u t) as [->|Ne].
    + rewrite set_thr_same in E. discriminate.
    + rewrite set_thr_other in E by exact Ne. eapply (J_view _ _ _ _ _ _ I); eauto.
  - intros x No. destruct (claims_dec c op (PDone r) x) as [Q|Q].
    + exact (J_view _ _ _ _ _ _ I _ _ _ _ Ht Q).
    + apply (J_free _ _ _ _ _ _ I). intros u (op1 & p1 & E & Q1).
      destruct (Nat.eq_dec u t) as [->|Ne].
      * rewrite Ht in E. injection E as <- <-. exact (Q Q1).
      * apply (No u). exists op1, p1. rewrite set_thr_other by exact Ne. auto.
Qed.

(** ** Every step *)

Definition silent (c : cfg) (S : gstate) (bk : book) (s : nat -> status) (h : Z -> who)
  (cs' : cstate) : Prop := J c cs' S bk s h.
Definition instant (c : cfg) (S : gstate) (bk : book) (s : nat -> status) (h : Z -> who)
  (t : nat) (op : event) (p : pc) (cs' : cstate) : Prop :=
  s t = SPending op /\ polite_ok c bk op /\
  exists S' r, step c S op = (S', r) /\
    (forall x, owner bk x <> Nobody -> ~ claims c op p x ->
               g_pm S' (x / chunk c) = g_pm S (x / chunk c)) /\
    J c cs' S' (note bk (op, r)) (set_status s t (SCommitted op r)) h.

Lemma step_dead c S op : (forall i b, op_box op = Some i -> nth_error (g_box S) i = Some b -> b_live b = false) ->
  (exists i rq, op = EvReq i rq) \/ (exists i sz ras mp, op = EvHostAlloc i sz ras mp) ->
  step c S op = (S, Response 99 0).
Proof.
  intros H [(i & rq & ->)|(i & sz & ras & mp & ->)]; cbn [step op_box] in *; unfold on_box;
    (destruct (nth_error (g_box S) i) as [b|] eqn:Hi; [rewrite (H i b eq_refl Hi)|]; reflexivity).
Qed.

Lemma step_live S i b f : nth_error (g_box S) i = Some b -> b_live b = true ->
  on_box S i f = (GState (fst (fst (f (g_pm S) b))) (upd i (snd (fst (f (g_pm S) b))) (g_box S)),
                  snd (f (g_pm S) b)).
Proof. intros Hi Lv. unfold on_box. rewrite Hi, Lv. destruct (f (g_pm S) b) as [[pm' b'] r]. reflexivity. Qed.

(** The instant of an operation that changes nothing. *)
Lemma plain_commit c cs S bk s h t op p r :
  J c cs S bk s h -> c_thr cs t = Some (op, p) -> stat (Some (op, p)) = SPending op ->
  no_claim c op p -> claim c op (PDone r) = None -> pcok c S bk h op (PDone r) ->
  polite_ok c bk op -> step c S op = (S, r) -> note bk (op, r) = bk ->
  instant c S bk s h t op p (CState (c_mem cs) (set_thr (c_thr cs) t (Some (op, PDone r)))).
Proof.
  intros I Ht Sp N N' Pc Po St Nt. split; [rewrite (J_stat _ _ _ _ _ _ I), Ht; exact Sp|].
  split; [exact Po|]. exists S, r. split; [exact St|]. split; [auto|]. rewrite Nt.
  eapply J_plain; eauto.
  - rewrite set_status_same. reflexivity.
  - intros u Ne. apply set_status_other. exact Ne.
Qed.

Lemma polite_req c bk i rq : request_words rq -> (rq_kind rq = 1 -> (rq_1 rq | rq_0 rq)) ->
  polite_ok c bk (EvReq i rq).
Proof. intros A B. split; cbn; auto. Qed.

Lemma note_err bk op r : rs_error r <> 0 -> note bk (op, r) = bk.
Proof. intros H. unfold note. apply Z.eqb_neq in H. rewrite H. reflexivity. Qed.

Lemma dealloc_sizes c S i rq : request_words rq -> dealloc_valid c S i rq ->
  chunk_size c (rq_1 rq) /\ (chunk c | rq_0 rq).
Proof.
  intros (W0 & W1 & W2) (K & b & Hi & Lv & V1 & V2 & V3). split.
  - apply andb_true_iff in V2 as [A B]. apply size_ok; auto. rewrite A. cbn. rewrite orb_false_r.
    apply Z.ltb_ge. lia.
  - apply align_down_fix. exact V3.
Qed.

(** An allocation changes no entry of an owned byte. *)
Lemma alloc_frame c S bk i b size a free' e x :
  cfg_ok c -> inv c S bk -> nth_error (g_box S) i = Some b -> b_live b = true ->
  chunk_size c size -> alloc_range (b_free b) size = Some (a, free') ->
  owner bk x <> Nobody ->
  set_metaentry c (g_pm S) a size e (x / chunk c) = g_pm S (x / chunk c).
Proof.
  intros C I Hi Lv Hs Al Ox.
  destruct (inv_take c S bk i b size a free' (backend_entry c) Host C I Hi Lv Hs Al ltac:(discriminate))
    as (D & _ & _ & Nob & _).
  { rewrite backend_not_owned. split; discriminate. }
  rewrite set_metaentry_spec; [|eapply natural_chunk; eauto|exact Hs].
  destruct (inblk a size x) eqn:Q; [|reflexivity]. apply inblk_true in Q. destruct (Ox (Nob x Q)).
Qed.

(** What an atomic DeallocChunk does once the checks before the scan passed. *)
Lemma service_dealloc_valid c S i rq b :
  nth_error (g_box S) i = Some b -> dealloc_valid c S i rq ->
  step c S (EvReq i rq)
  = if all_sandbox_owned c (g_pm S) (chunk_steps c (rq_1 rq)) (rq_0 rq)
    then (GState (set_metaentry c (g_pm S) (rq_0 rq) (rq_1 rq) (backend_entry c))
            (upd i (Sbx (b_shm b) (b_bits b) (dealloc_range (b_free b) (rq_0 rq) (rq_1 rq)) (b_live b))
                 (g_box S)), Response 0 0)
    else (S, Response 4 0).
Proof.
  intros Hi (K & b' & Hi' & Lv & V1 & V2 & V3). rewrite Hi in Hi'. injection Hi' as <-.
  cbn [step]. rewrite (step_live S i b) by auto. unfold service. rewrite K. cbn [Z.eqb Pos.eqb].
  unfold service_dealloc. rewrite V1, V2, V3. cbn [negb].
  destruct (all_sandbox_owned c (g_pm S) (chunk_steps c (rq_1 rq)) (rq_0 rq)); cbn [negb fst snd].
  - reflexivity.
  - rewrite gstate_eta by exact Hi. reflexivity.
Qed.

Lemma J_tstep c cs S bk s h t op p F' p' :
  cfg_ok c -> J c cs S bk s h -> c_thr cs t = Some (op, p) -> (forall r, p <> PDone r) ->
  step_ok c (c_mem cs) op p ->
  tstep c (c_mem cs) op p = (F', p') ->
  silent c S bk s h (CState F' (set_thr (c_thr cs) t (Some (op, p')))) \/
  instant c S bk s h t op p (CState F' (set_thr (c_thr cs) t (Some (op, p')))).
Proof.
  intros C I Ht Nd Sk E. pose proof (J_pc _ _ _ _ _ _ I _ _ _ Ht) as Pc.
  pose proof (J_inv _ _ _ _ _ _ I) as Iv. pose proof (I_layout _ _ _ Iv) as L.
  assert (St0 : s t = stat (Some (op, p))) by (rewrite (J_stat _ _ _ _ _ _ I), Ht; reflexivity).
  destruct p as [|a n|a n e r|a n| |base top a|r]; cbn [tstep] in E.
  - (* PStart *)
    unfold start_step in E. rewrite (J_box _ _ _ _ _ _ I) in E.
    destruct op as [i rq|i sz ras mp|i A sz|sh bi|i]; cbn [pcok] in Pc; try contradiction.
    + destruct Pc as (W1 & W2 & W3).
      assert (Po : polite_ok c bk (EvReq i rq)) by (apply polite_req; auto).
      assert (Dead : (forall b, nth_error (g_box S) i = Some b -> b_live b = false) ->
        F' = c_mem cs /\ p' = PDone (Response 99 0)).
      { intros D. cbn [op_box] in E. destruct (nth_error (g_box S) i) as [b|]; [rewrite (D b eq_refl) in E|];
          injection E as <- <-; auto. }
      assert (Nc : no_claim c (EvReq i rq) PStart) by (apply no_claim_none; reflexivity).
      destruct (nth_error (g_box S) i) as [b|] eqn:Hi.
      2:{ right. destruct Dead as [-> ->]; [discriminate|].
          apply (plain_commit c cs S bk s h t _ PStart); auto; try reflexivity.
          - cbn [pcok]. auto.
          - apply step_dead; [cbn [op_box]; intros j b Ej; injection Ej as <-; rewrite Hi; discriminate|]. left. eauto. }
      destruct (b_live b) eqn:Lv.
      2:{ right. destruct Dead as [-> ->]; [congruence|].
          apply (plain_commit c cs S bk s h t _ PStart); auto; try reflexivity.
          - cbn [pcok]. auto.
          - apply step_dead; [cbn [op_box]; intros j b' Ej; injection Ej as <-; rewrite Hi; congruence|]. left. eauto. }
      clear Dead. cbn [op_box live_start] in E. rewrite Hi, Lv in E. cbn [live_start] in E.
      assert (PC : forall r, rs_error r <> 0 \/ rq_kind rq <> 0 /\ rq_kind rq <> 1 ->
        service c (g_pm S) b rq = (g_pm S, b, r) ->
        instant c S bk s h t (EvReq i rq) PStart
          (CState (c_mem cs) (set_thr (c_thr cs) t (Some (EvReq i rq, PDone r))))).
      { intros r Hr Sv. apply (plain_commit c cs S bk s h t _ PStart); auto.
        - cbn [claim]. destruct Hr as [Hr|[Hr _]]; apply Z.eqb_neq in Hr; rewrite Hr;
            [reflexivity|rewrite andb_false_r; reflexivity].
        - cbn [pcok]. auto.
        - cbn [step]. rewrite (step_live S i b) by auto. rewrite Sv. cbn [fst snd].
          rewrite gstate_eta by exact Hi. reflexivity.
        - destruct Hr as [Hr|[H0 H1]]; [apply note_err; exact Hr|].
          cbn [note]. apply Z.eqb_neq in H0, H1. rewrite H0, H1. destruct (rs_error r =? 0); reflexivity. }
      unfold service_start in E. unfold service in PC.
      destruct (rq_kind rq =? 0) eqn:K0.
      * unfold service_alloc in PC. right.
        destruct ((rq_0 rq <? chunk c) || negb (is_pow2 (rq_0 rq))) eqn:Sz.
        { injection E as <- <-. apply PC; [left; cbn; lia|reflexivity]. }
        destruct (is_metaentry_valid c b (rq_0 rq) (Entry (rq_1 rq) (rq_2 rq))) eqn:V; cbn [negb] in *.
        2:{ injection E as <- <-. apply PC; [left; cbn; lia|reflexivity]. }
        unfold take_step in E.
        destruct (alloc_range (b_free b) (rq_0 rq)) as [[a free']|] eqn:Al.
        2:{ injection E as <- <-. apply PC; [left; cbn; lia|reflexivity]. }
        injection E as <- <-. clear PC.
        assert (CS : chunk_size c (rq_0 rq)) by (apply size_ok; [apply W1|exact Sz]).
        split; [exact St0|]. split; [exact Po|].
        eexists. exists (Response 0 a). split.
        { cbn [step]. rewrite (step_live S i b) by auto. unfold service, service_alloc.
          rewrite K0, Sz, V, Al. cbn [negb fst snd]. reflexivity. }
        split.
        { intros x Ox _. cbn [g_pm]. eapply alloc_frame; eauto. }
        apply (take_commit c cs S bk s h t (EvReq i rq) i b (rq_0 rq)
                 (claim_for_sandbox (Entry (rq_1 rq) (rq_2 rq))) Sandbox a free'); auto.
        -- rewrite claim_owned. tauto.
        -- cbn [note rs_error rs_ret]. rewrite Z.eqb_refl, K0. reflexivity.
        -- intros At. cbn [pcok rs_ret rs_error]. split; [exact W1|]. split; [exact W2|].
           split; [exact At|]. split; [reflexivity|]. apply Z.eqb_eq. exact K0.
      * destruct (rq_kind rq =? 1) eqn:K1.
        -- unfold service_dealloc in PC. apply Z.eqb_eq in K1.
           destruct (contains (box_heap c b) (rq_0 rq) (rq_1 rq)) eqn:V1; cbn [negb] in *.
           2:{ right. injection E as <- <-. apply PC; [left; cbn; lia|reflexivity]. }
           destruct (is_pow2 (rq_1 rq) && (chunk c <=? rq_1 rq)) eqn:V2; cbn [negb] in *.
           2:{ right. injection E as <- <-. apply PC; [left; cbn; lia|reflexivity]. }
           destruct (align_down (rq_0 rq) (chunk c) =? rq_0 rq) eqn:V3; cbn [negb] in *.
           2:{ right. injection E as <- <-. apply PC; [left; cbn; lia|reflexivity]. }
           injection E as <- <-. left. clear PC.
           assert (DV : dealloc_valid c S i rq) by (split; [exact K1|]; exists b; auto).
           destruct (dealloc_sizes c S i rq W1 DV) as [Cs Ca].
           apply (J_plain c cs S bk s h t _ PStart); auto.
           cbn [pcok]. split; [exact W1|]. split; [exact W2|]. split; [exact DV|].
           split; [apply at_chunk_init; auto|]. split; [intros x Hx; lia|]. apply W3. exact K1.
        -- right. injection E as <- <-. apply PC; [right; lia|reflexivity].
    + destruct Pc as [(Cs & A16 & Pm) _].
      assert (Po : polite_ok c bk (EvHostAlloc i sz ras mp)) by (split; cbn; auto).
      assert (Nc : no_claim c (EvHostAlloc i sz ras mp) PStart) by (apply no_claim_none; reflexivity).
      right.
      assert (PC : forall r, rs_error r <> 0 -> step c S (EvHostAlloc i sz ras mp) = (S, r) ->
        instant c S bk s h t (EvHostAlloc i sz ras mp) PStart
          (CState (c_mem cs) (set_thr (c_thr cs) t (Some (EvHostAlloc i sz ras mp, PDone r))))).
      { intros r Hr Sv. apply (plain_commit c cs S bk s h t _ PStart); auto.
        - cbn [claim]. apply Z.eqb_neq in Hr. rewrite Hr. reflexivity.
        - apply note_err. exact Hr. }
      cbn [op_box] in E. destruct (nth_error (g_box S) i) as [b|] eqn:Hi.
      2:{ injection E as <- <-. apply PC; [cbn; lia|].
          apply step_dead; [cbn [op_box]; intros j b Ej; injection Ej as <-; rewrite Hi; discriminate|]. right. eauto 6. }
      destruct (b_live b) eqn:Lv.
      2:{ injection E as <- <-. apply PC; [cbn; lia|].
          apply step_dead; [cbn [op_box]; intros j b' Ej; injection Ej as <-; rewrite Hi; congruence|]. right. eauto 6. }
      cbn [live_start] in E. unfold take_step in E.
      destruct (alloc_range (b_free b) sz) as [[a free']|] eqn:Al.
      2:{ injection E as <- <-. apply PC; [cbn; lia|].
          cbn [step]. rewrite (step_live S i b) by auto. unfold host_alloc. rewrite Al. cbn [fst snd].
          rewrite gstate_eta by exact Hi. reflexivity. }
      injection E as <- <-. clear PC.
      split; [exact St0|]. split; [exact Po|].
      eexists. exists (Response 0 a). split.
      { cbn [step]. rewrite (step_live S i b) by auto. unfold host_alloc. rewrite Al. cbn [fst snd].
        reflexivity. }
      split.
      { intros x Ox _. cbn [g_pm]. eapply alloc_frame; eauto. }
      apply (take_commit c cs S bk s h t (EvHostAlloc i sz ras mp) i b sz
               (Entry mp ras) Host a free'); auto.
      * rewrite aligned_ptr_not_owned by exact A16. split; discriminate.
      * intros At. cbn [pcok rs_ret rs_error]. auto.
    + destruct Pc as [(Cs & Al & Ir) _]. left.
      destruct (in_region_box _ _ _ _ _ _ L Ir) as (b & Hi & Lv & _).
      cbn [op_box live_start] in E. rewrite Hi, Lv in E. cbn [live_start] in E. injection E as <- <-.
      rewrite <- (gstate_same (c_mem cs)).
      eapply (J_inside c cs S bk s h t _ PStart); eauto; try reflexivity.
      * cbn [pcok]. split; [auto|]. apply at_chunk_init; auto. eapply natural_chunk; eauto.
      * intros x Hx. cbn [view]. destruct (Z.ltb_spec x A); [lia|].
        pose proof (J_view _ _ _ _ _ _ I t _ _ x Ht) as V. cbn [view] in V. apply V.
        exists A, sz, Host. auto.
    + (* EvCreate *)
      right. cbn [op_box] in E. injection E as <- <-. cbn [step_ok] in Sk.
      assert (Fr : fresh_region c bk sh bi).
      { destruct Sk as (F1 & F2 & F3 & F4 & F5 & F6). repeat (split; [assumption|]).
        intros r Hr Lr. rewrite <- (L_book _ _ _ L) in Hr. apply in_map_iff in Hr as (b & <- & Hb).
        apply In_nth_error in Hb as [i Hi]. rewrite <- (J_box _ _ _ _ _ _ I) in Hi.
        exact (F6 i b Hi Lr). }
      split; [exact St0|]. split; [split; [exact Fr|exact Logic.I]|].
      eexists. eexists. split; [reflexivity|]. split; [reflexivity|].
      cbn [note rs_error Z.eqb]. rewrite <- (J_box _ _ _ _ _ _ I) at 1. apply create_commit; auto.
    + (* EvDestroy *)
      left. destruct Pc as (b & Hi & Lv & Hn). cbn [op_box] in E. rewrite Hi, Lv in E.
      cbn [live_start] in E. unfold destroy_start in E. injection E as <- <-.
      exact (clear_start c cs S bk s h t i b C I Ht Hi Lv Hn).
  - (* PCheck *)
    destruct op as [i rq|i sz ras mp|i A sz|sh bi|i]; cbn [pcok] in Pc; try contradiction;
      try (destruct Pc as [_ []]; fail).
    destruct Pc as (W1 & W2 & DV & At & Own & Hs).
    assert (T0 : t = 0%nat).
    { pose proof (J_svc _ _ _ _ _ _ I _ _ _ Ht) as Q. symmetry in Q. apply Nat.eqb_eq in Q. exact Q. }
    subst t.
    assert (Nc : no_claim c (EvReq i rq) (PCheck a n)) by (apply no_claim_none; reflexivity).
    assert (NCl : forall x u, rq_0 rq <= x < rq_0 rq + rq_1 rq -> owner bk x = Sandbox -> u <> 0%nat ->
                  ~ claimed c (c_thr cs) u x).
    { intros x u Hx O Nu. destruct (dealloc_box _ _ _ _ _ _ C L DV Hx W1) as (b & Hi & Lv & Xb).
      exact (sandbox_not_claimed_by_host _ _ _ _ _ _ _ _ _ _ _ _ I Ht eq_refl Hi Lv Xb O Nu). }
    destruct n as [|n].
    + left. injection E as <- <-. cbn [op_block fst snd].
      destruct (dealloc_sizes c S i rq W1 DV) as [Cs Ca].
      pose proof (at_chunk_end _ _ _ _ At) as Ea. subst a.
      apply (J_update c cs S bk s h 0%nat (EvReq i rq) (PCheck (rq_0 rq + rq_1 rq) 0) (c_mem cs) _ S bk s
               (fun x => rq_0 rq <= x < rq_0 rq + rq_1 rq)); auto.
      * intros x. apply inblk_dec.
      * intros u op1 p1 j _ _ _ r Hr. exact Hr.
      * exact (J_box _ _ _ _ _ _ I).
      * intros x Bx. destruct (h x) eqn:Hh; auto; exfalso.
        -- pose proof (J_hold _ _ _ _ _ _ I x ltac:(congruence)) as O. rewrite (Own x Bx) in O. congruence.
        -- exact (Hs x Bx Hh).
      * cbn [pcok]. split; [exact W1|]. split; [exact W2|]. split; [exact DV|]. apply at_chunk_init; auto.
      * intros a n w x Ec Hx. cbn in Ec. injection Ec as <- <- <-. auto.
      * intros x (a & n & w & Ec & Hx). cbn in Ec. injection Ec as <- <- <-.
        destruct (dealloc_box _ _ _ _ _ _ C L DV Hx W1) as (b & Hi & Lv & Xb). exists i, b. auto.
      * intros x (a & n & w & Ec & Hx). cbn in Ec. injection Ec as <- <- <-. cbn [view].
        destruct (Z.ltb_spec x (rq_0 rq)); [lia|]. apply (J_free _ _ _ _ _ _ I).
        intros u Q. destruct (Nat.eq_dec u 0) as [->|Nu].
        -- destruct Q as (op1 & p1 & E1 & Q). rewrite Ht in E1. injection E1 as <- <-. exact (Nc x Q).
        -- exact (NCl x u Hx (Own x Hx) Nu Q).
      * intros x Bx Q. destruct Q. exists (rq_0 rq), (rq_1 rq), Sandbox. auto.
      * intros x Q. destruct (Nc x Q).
    + destruct (at_chunk_next _ _ _ _ _ At) as (At' & L1 & L2).
      assert (Da : (chunk c | a)) by apply At. pose proof (chunk_pos c) as P.
      destruct (dealloc_box _ _ _ _ _ a C L DV ltac:(lia) W1) as (b & Hi & Lv & Xb).
      pose proof (check_reads c cs S bk s h _ _ i b a I Ht Nc eq_refl Hi Lv Xb) as Rd. clear b Hi Lv Xb.
      destruct (is_sandbox_owned (g_pm (c_mem cs) (a / chunk c))) eqn:M; injection E as <- <-.
      * left. apply (J_plain c cs S bk s h 0%nat _ (PCheck a (Datatypes.S n))); auto.
        cbn [pcok]. split; [exact W1|]. split; [exact W2|]. split; [exact DV|]. split; [exact At'|].
        split; [|exact Hs]. intros x Hx. destruct (Z_lt_ge_dec x a); [apply Own; lia|].
        apply (I_mark _ _ _ Iv). replace (x / chunk c) with (a / chunk c); [congruence|].
        destruct Da as [q ->]. rewrite Z.div_mul by lia.
        apply Z.div_unique with (x - q * chunk c); lia.
      * right. apply (plain_commit c cs S bk s h 0%nat _ (PCheck a (Datatypes.S n))); auto.
        -- cbn [pcok]. auto.
        -- apply polite_req; auto.
        -- destruct DV as (K & b & Hi & DV). rewrite (service_dealloc_valid c S i rq b Hi).
           2:{ split; [exact K|]. exists b. auto. }
           destruct (all_sandbox_owned c (g_pm S) (chunk_steps c (rq_1 rq)) (rq_0 rq)) eqn:O; [|reflexivity].
           exfalso. destruct (dealloc_sizes c S i rq W1) as [Cs Ca].
           { split; [exact K|]. exists b. auto. }
           pose proof (proj1 (all_owned_bytes c (g_pm S) _ _ Ca Cs) O a ltac:(lia)). congruence.
  - (* PMark *)
    destruct op as [i rq|i sz ras mp|i A sz|sh bi|i]; cbn [pcok] in Pc; try contradiction;
      try (destruct Pc as [_ []]; fail).
    + destruct Pc as (W1 & W2 & At & Er & K). left. destruct n as [|n]; injection E as <- <-.
      * eapply mark_end; eauto; [cbn; reflexivity| |cbn; auto].
        cbn [claim]. rewrite Er, K. reflexivity.
      * eapply mark_step; eauto; [cbn; reflexivity|]. cbn [pcok].
        split; [exact W1|]. split; [exact W2|]. split; [|auto]. apply (at_chunk_next _ _ _ _ _ At).
    + destruct Pc as (W1 & At & Er). left. destruct n as [|n]; injection E as <- <-.
      * eapply mark_end; eauto; [cbn; reflexivity| |cbn; auto].
        cbn [claim]. rewrite Er. reflexivity.
      * eapply mark_step; eauto; [cbn; reflexivity|]. cbn [pcok].
        split; [exact W1|]. split; [|auto]. apply (at_chunk_next _ _ _ _ _ At).
  - (* PUnmark *)
    destruct op as [i rq|i sz ras mp|i A sz|sh bi|i]; cbn [pcok] in Pc; try contradiction;
      try (destruct Pc as [_ []]; fail).
    + destruct Pc as (W1 & W2 & DV & At). left. destruct n as [|n]; injection E as <- <-.
      * eapply unmark_end; eauto; [cbn; reflexivity|cbn; reflexivity|]. cbn [pcok]. auto.
      * eapply unmark_step; eauto; [cbn; reflexivity|]. cbn [pcok].
        split; [exact W1|]. split; [exact W2|]. split; [exact DV|]. apply (at_chunk_next _ _ _ _ _ At).
    + destruct Pc as (W1 & At). left. destruct n as [|n]; injection E as <- <-.
      * eapply unmark_end; eauto; [cbn; reflexivity|cbn; reflexivity|]. cbn [pcok]. auto.
      * eapply unmark_step; eauto; [cbn; reflexivity|]. cbn [pcok].
        split; [exact W1|]. apply (at_chunk_next _ _ _ _ _ At).
  - (* PGiveBack *)
    right.
    destruct op as [i rq|i sz ras mp|i A sz|sh bi|i]; cbn [pcok] in Pc; try contradiction;
      try (destruct Pc as [_ []]; fail).
    + destruct Pc as (W1 & W2 & DV). destruct (dealloc_sizes c S i rq W1 DV) as [Cs Ca].
      assert (Po : polite_ok c bk (EvReq i rq)) by (apply polite_req; auto).
      pose proof DV as (K & b & Hi & _). pose proof (service_dealloc_valid c S i rq b Hi DV) as Sv.
      assert (Ow : all_sandbox_owned c (g_pm S) (chunk_steps c (rq_1 rq)) (rq_0 rq) = true).
      { apply all_owned_bytes; auto. intros x Hx. apply (I_mark _ _ _ Iv).
        refine (proj1 (J_own _ _ _ _ _ _ I _ _ _ _ _ _ _ Ht eq_refl Hx) _). discriminate. }
      rewrite Ow in Sv.
      pose proof (inv_step c S bk _ _ _ C Iv Po Sv) as I'.
      assert (Nt : note bk (EvReq i rq, Response 0 0)
                   = Book (set_owner (owner bk) (rq_0 rq) (rq_1 rq) Nobody) (regions bk)).
      { cbn [note rs_error]. rewrite K. reflexivity. }
      rewrite Nt in I'.
      assert (Cd : claim c (EvReq i rq) (PDone (Response 0 0)) = None).
      { cbn [claim rs_error]. rewrite K. reflexivity. }
      destruct (give_commit c cs S bk s h t (EvReq i rq) i b (rq_0 rq) (rq_1 rq) Sandbox _ _
                  C I Ht eq_refl Cd eq_refl eq_refl Hi Ca Cs eq_refl eq_refl I') as (F1 & G1 & G2).
      { cbn [pcok]. auto. }
      rewrite G1 in E. injection E as <- <-.
      split; [exact St0|]. split; [exact Po|]. eexists. eexists. split; [exact Sv|].
      split; [|rewrite Nt; exact G2]. intros x _ Nx. cbn [g_pm]. rewrite set_metaentry_spec by auto.
      destruct (inblk (rq_0 rq) (rq_1 rq) x) eqn:Q; [|reflexivity]. destruct Nx.
      exists (rq_0 rq), (rq_1 rq), Sandbox. apply inblk_true in Q. auto.
    + destruct Pc as ((Cs & Al & Ir) & _).
      destruct (in_region_box _ _ _ _ _ _ L Ir) as (b & Hi & Lv & B1 & B2).
      assert (Po : polite_ok c bk (EvHostFree i A sz)).
      { split; cbn [hostile_ok].
        - split; [exact Cs|]. split; [eapply natural_chunk; eauto|exact Ir].
        - split; [exact Al|]. intros x Hx.
          refine (proj1 (J_own _ _ _ _ _ _ I _ _ _ _ _ _ _ Ht eq_refl Hx) _). discriminate. }
      assert (Sv : step c S (EvHostFree i A sz)
        = (GState (set_metaentry c (g_pm S) A sz (backend_entry c))
            (upd i (Sbx (b_shm b) (b_bits b) (dealloc_range (b_free b) A sz) (b_live b)) (g_box S)),
           Response 0 0)).
      { cbn [step]. rewrite (step_live S i b) by auto. reflexivity. }
      pose proof (inv_step c S bk _ _ _ C Iv Po Sv) as I'.
      assert (Nt : note bk (EvHostFree i A sz, Response 0 0)
                   = Book (set_owner (owner bk) A sz Nobody) (regions bk)) by reflexivity.
      rewrite Nt in I'.
      destruct (give_commit c cs S bk s h t (EvHostFree i A sz) i b A sz Host _ _
                  C I Ht eq_refl eq_refl eq_refl eq_refl Hi (natural_chunk _ _ _ Cs Al) Cs
                  eq_refl eq_refl I') as (F1 & G1 & G2).
      { cbn [pcok]. auto. }
      rewrite G1 in E. injection E as <- <-.
      split; [exact St0|]. split; [exact Po|]. eexists. eexists. split; [exact Sv|].
      split; [|rewrite Nt; exact G2]. intros x _ Nx. cbn [g_pm].
      rewrite set_metaentry_spec by (auto; eapply natural_chunk; eauto).
      destruct (inblk A sz x) eqn:Q; [|reflexivity]. destruct Nx.
      exists A, sz, Host. apply inblk_true in Q. auto.
  - (* PClear *)
    destruct op as [i rq|i sz ras mp|i A sz|sh bi|i]; cbn [pcok] in Pc; try contradiction;
      try (destruct Pc as [_ []]; fail); try (destruct Pc as (_ & _ & []); fail).
    destruct (Z.ltb_spec a top) as [Lt|Ge].
    + left. injection E as <- <-. apply clear_step; auto.
    + right. destruct (gone_commit c cs S bk s h t i base top a C I Ht Ge)
        as (b & F1 & Hi & Lv & Cx & G1 & G2).
      rewrite G1 in E. injection E as <- <-. split; [exact St0|]. split; [split; exact Logic.I|].
      eexists. exists (Response 0 0). split.
      { cbn [step]. rewrite (step_live S i b) by auto. cbn [fst snd]. reflexivity. }
      split.
      * intros x _ Nx. cbn [g_pm]. rewrite library_destroy_pm; [|exact C|exact (L_ok _ _ _ L i b Hi Lv)].
        destruct (inblk _ _ x) eqn:Q; [|reflexivity]. apply inblk_true in Q. destruct Nx. apply Cx. exact Q.
      * assert (Hr : nth_error (regions bk) i = Some (box_region b)).
        { rewrite <- (L_book _ _ _ L), nth_error_map, Hi. reflexivity. }
        cbn [note rs_error Z.eqb]. rewrite Hr. exact G2.
  - destruct (Nd r eq_refl).
Qed.

(** ** Whole executions *)

Lemma oat_call s ls tr s' t op : one_at_a_time s ls tr s' -> s' t = SIdle ->
  one_at_a_time s (ls ++ [LCall t op]) tr (set_status s' t (SPending op)).
Proof.
  induction 1; intros E; cbn [app].
  - apply O_call; [exact E|]. constructor.
  - apply O_call; auto.
  - eapply O_instant; eauto.
  - eapply O_ret; eauto.
Qed.

Lemma oat_instant s ls tr s' t op r : one_at_a_time s ls tr s' -> s' t = SPending op ->
  one_at_a_time s ls (tr ++ [(op, r)]) (set_status s' t (SCommitted op r)).
Proof.
  induction 1; intros E; cbn [app].
  - eapply O_instant; [exact E|]. constructor.
  - apply O_call; auto.
  - eapply O_instant; eauto.
  - eapply O_ret; eauto.
Qed.

Lemma oat_ret s ls tr s' t op r : one_at_a_time s ls tr s' -> s' t = SCommitted op r ->
  one_at_a_time s (ls ++ [LRet t op r]) tr (set_status s' t SIdle).
Proof.
  induction 1; intros E; cbn [app].
  - eapply O_ret; [exact E|]. constructor.
  - apply O_call; auto.
  - eapply O_instant; eauto.
  - eapply O_ret; eauto.
Qed.

Definition linearised (c : cfg) (bk0 : book) (st0 : gstate) (ls : list label) (h : Z -> who)
  (cs : cstate) (evs : list event) (st : gstate) (tr : list (event * response)) (s : nat -> status) : Prop :=
  admissible (polite_ok c) c st0 bk0 evs /\ run c st0 evs = (st, tr) /\
  one_at_a_time (fun _ => SIdle) ls tr s /\ J c cs st (fold_left note tr bk0) s h.

Lemma linearise c bk0 st0 ls h m cs : cfg_ok c -> inv c st0 bk0 ->
  execution c (call_ok c) (owner bk0) st0 ls h m cs ->
  exists evs st tr s, linearised c bk0 st0 ls h cs evs st tr s.
Proof.
  intros C I0 X. induction X as [|ls h m cs t op X IH Ht Ok|ls h m cs t op p st' p' X IH Ht Nd Sk E|ls h m cs t op r X IH Ht].
  - exists [], st0, [], (fun _ => SIdle). split; [exact Logic.I|]. split; [reflexivity|].
    split; [constructor|]. apply J_init. exact I0.
  - destruct IH as (evs & st & tr & s & A & R & O & Ij).
    exists evs, st, tr, (set_status s t (SPending op)). split; [exact A|]. split; [exact R|].
    split; [|apply J_call; auto]. apply oat_call; [exact O|]. rewrite (J_stat _ _ _ _ _ _ Ij), Ht. reflexivity.
  - destruct IH as (evs & st & tr & s & A & R & O & Ij).
    destruct (J_tstep c cs st _ s h t op p st' p' C Ij Ht Nd Sk E) as [Si|(Sp & Po & S' & r & St & _ & Ij')].
    + exists evs, st, tr, s. split; [exact A|]. split; [exact R|]. split; [exact O|exact Si].
    + exists (evs ++ [op]), S', (tr ++ [(op, r)]), (set_status s t (SCommitted op r)).
      split; [eapply admissible_snoc; eauto|]. split; [eapply run_snoc; eauto|].
      split; [apply oat_instant; auto|]. rewrite fold_left_app. exact Ij'.
  - destruct IH as (evs & st & tr & s & A & R & O & Ij).
    exists evs, st, tr, (set_status s t SIdle). split; [exact A|]. split; [exact R|].
    split; [|apply J_ret; auto]. apply oat_ret; [exact O|]. rewrite (J_stat _ _ _ _ _ _ Ij), Ht. reflexivity.
Qed.

Lemma admissible_app P c : forall evs1 evs2 st bk st1 tr1,
  admissible P c st bk evs1 -> run c st evs1 = (st1, tr1) ->
  admissible P c st1 (fold_left note tr1 bk) evs2 -> admissible P c st bk (evs1 ++ evs2).
Proof.
  induction evs1 as [|e r IH]; intros evs2 st bk st1 tr1 A R A2; cbn in *.
  - injection R as <- <-. exact A2.
  - destruct A as [A1 A3]. split; [exact A1|]. destruct (step c st e) as [s1 r1].
    destruct (run c s1 r) as [s2 t2] eqn:E. injection R as <- <-. eapply IH; eauto.
Qed.

Lemma run_app_eq c : forall evs1 evs2 st st1 tr1 st2 tr2,
  run c st evs1 = (st1, tr1) -> run c st1 evs2 = (st2, tr2) ->
  run c st (evs1 ++ evs2) = (st2, tr1 ++ tr2).
Proof.
  induction evs1 as [|e r IH]; intros evs2 st st1 tr1 st2 tr2 R R2; cbn in *.
  - injection R as <- <-. exact R2.
  - destruct (step c st e) as [s1 r1]. destruct (run c s1 r) as [s2 t2] eqn:E. injection R as <- <-.
    rewrite (IH _ _ _ _ _ _ E R2). reflexivity.
Qed.

(** ** The entries of the host's slabs *)

Definition ent (e : entry) (mp ras : Z) : Prop := exists old, e = assign old (Entry mp ras).

Record K (c : cfg) (cs : cstate) (S : gstate) (h : Z -> who) (m : Z -> option (Z * Z)) : Prop := {
  K_slab : forall x mp ras, m x = Some (mp, ras) ->
           h x = Host /\ ent (g_pm S (x / chunk c)) mp ras /\ (16 | mp) /\ 0 <= mp;
  K_thr : forall t i sz ras mp p x, c_thr cs t = Some (EvHostAlloc i sz ras mp, p) ->
          claims c (EvHostAlloc i sz ras mp) p x ->
          ent (g_pm S (x / chunk c)) mp ras }.

Lemma host_alloc_entries c S bk i sz ras mp S' r x :
  cfg_ok c -> inv c S bk -> chunk_size c sz -> step c S (EvHostAlloc i sz ras mp) = (S', r) ->
  rs_error r = 0 -> rs_ret r <= x < rs_ret r + sz -> ent (g_pm S' (x / chunk c)) mp ras.
Proof.
  intros C I Hs St Er Hx. cbn [step] in St. unfold on_box in St.
  destruct (nth_error (g_box S) i) as [b|] eqn:Hi; [|injection St as <- <-; discriminate].
  destruct (b_live b) eqn:Lv; [|injection St as <- <-; discriminate].
  unfold host_alloc in St. destruct (alloc_range (b_free b) sz) as [[a free']|] eqn:Al;
    injection St as <- <-; [|discriminate]. cbn [rs_ret g_pm] in *.
  destruct (inv_take c S bk i b sz a free' (backend_entry c) Host C I Hi Lv Hs Al ltac:(discriminate))
    as (D & _).
  { rewrite backend_not_owned. split; discriminate. }
  rewrite set_metaentry_spec; [|eapply natural_chunk; eauto|exact Hs].
  apply inblk_true in Hx. rewrite Hx. eexists. reflexivity.
Qed.

Lemma linearise_slabs c bk0 st0 ls h m cs : cfg_ok c -> inv c st0 bk0 ->
  execution c (call_ok c) (owner bk0) st0 ls h m cs ->
  exists evs st tr s, linearised c bk0 st0 ls h cs evs st tr s /\ K c cs st h m.
Proof.
  intros C I0 X. induction X as [|ls h m cs t op X IH Ht Ok|ls h m cs t op p st' p' X IH Ht Nd Sk E|ls h m cs t op r X IH Ht].
  - exists [], st0, [], (fun _ => SIdle). split.
    + split; [exact Logic.I|]. split; [reflexivity|]. split; [constructor|]. apply J_init. exact I0.
    + constructor; cbn; discriminate.
  - destruct IH as (evs & st & tr & s & (A & R & O & Ij) & [K1 K2]).
    exists evs, st, tr, (set_status s t (SPending op)). split.
    + split; [exact A|]. split; [exact R|].
      split; [|apply J_call; auto]. apply oat_call; [exact O|]. rewrite (J_stat _ _ _ _ _ _ Ij), Ht. reflexivity.
    + constructor; cbn [c_thr].
      * intros x mp ras Hm. destruct op as [i rq|i sz ra m0|i a sz|sh bi|i]; cbn [slab_after hold_after] in *; auto.
        -- destruct (K1 _ _ _ Hm) as (Hh & Rest). split; [|exact Rest].
           destruct (rq_kind rq =? 1); [|exact Hh].
           destruct ((rq_0 rq <=? x) && (x <? rq_0 rq + rq_1 rq)); rewrite ?Hh; auto.
        -- rewrite set_owner_eq. unfold inblk. destruct ((a <=? x) && (x <? a + sz)); [discriminate|]. auto.
        -- rewrite set_owner_eq. unfold inblk.
           destruct ((fst (region_of (c_mem cs) i) <=? x) &&
                     (x <? fst (region_of (c_mem cs) i) + snd (region_of (c_mem cs) i))); [discriminate|]. auto.
      * intros u i sz ras mp p x Eu Q. destruct (Nat.eq_dec u t) as [->|Ne].
        -- rewrite set_thr_same in Eu. inversion Eu; subst. destruct Q as (a & n & w & Ec & _). discriminate.
        -- rewrite set_thr_other in Eu by exact Ne. eapply K2; eauto.
  - destruct IH as (evs & st & tr & s & (A & R & O & Ij) & [K1 K2]).
    pose proof (J_inv _ _ _ _ _ _ Ij) as Iv.
    destruct (J_tstep c cs st _ s h t op p st' p' C Ij Ht Nd Sk E) as [Si|(Sp & Po & S' & r & St & Fr & Ij')].
    + exists evs, st, tr, s. split; [split; [exact A|]; split; [exact R|]; split; [exact O|exact Si]|].
      constructor; [exact K1|]. cbn [c_thr]. intros u i sz ras mp q x Eu Q.
      destruct (Nat.eq_dec u t) as [->|Ne].
      * rewrite set_thr_same in Eu. inversion Eu; subst.
        pose proof (J_stat _ _ _ _ _ _ Ij t) as T1. pose proof (J_stat _ _ _ _ _ _ Si t) as T2.
        cbn [c_thr] in T2. rewrite set_thr_same in T2. rewrite Ht in T1.
        apply (K2 t i sz ras mp p x Ht). pose proof (J_pc _ _ _ _ _ _ Ij _ _ _ Ht) as Pc.
        destruct Q as (a & n & w & Ec & Hx). exists a, n, w. split; [|exact Hx].
        destruct p as [|a1 n1|a1 n1 e1 r1|a1 n1| |ba to a1|r1]; cbn [pcok] in Pc;
          try (destruct Pc as [_ []]; fail).
        -- rewrite T2 in T1. destruct q; try discriminate.
        -- destruct Pc as (_ & _ & Er). destruct n1; cbn [tstep] in E; injection E as <- <-.
           ++ cbn [claim] in Ec |- *. rewrite Er in Ec. exact Ec.
           ++ exact Ec.
        -- destruct (Nd r1 eq_refl).
      * rewrite set_thr_other in Eu by exact Ne. eapply K2; eauto.
    + exists (evs ++ [op]), S', (tr ++ [(op, r)]), (set_status s t (SCommitted op r)). split.
      { split; [eapply admissible_snoc; eauto|]. split; [eapply run_snoc; eauto|].
        split; [apply oat_instant; auto|]. rewrite fold_left_app. exact Ij'. }
      constructor; cbn [c_thr].
      * intros x mp ras Hm. destruct (K1 _ _ _ Hm) as (Hh & He & Rest). split; [exact Hh|].
        split; [|exact Rest]. rewrite Fr; [exact He| |].
        -- rewrite (J_hold _ _ _ _ _ _ Ij x) by congruence. congruence.
        -- intros (a & n & w & Ec & Hx).
           destruct (J_own _ _ _ _ _ _ Ij _ _ _ _ _ _ _ Ht Ec Hx). congruence.
      * intros u i sz ras mp q x Eu Q. destruct (Nat.eq_dec u t) as [->|Ne].
        -- rewrite set_thr_same in Eu. inversion Eu; subst.
           pose proof (J_stat _ _ _ _ _ _ Ij' t) as T2. cbn [c_thr] in T2.
           rewrite set_thr_same, set_status_same in T2.
           destruct Po as [(Cs & _) _].
           destruct Q as (a & n & w & Ec & Hx).
           pose proof (J_pc _ _ _ _ _ _ Ij' t (EvHostAlloc i sz ras mp) q) as Pc'. cbn [c_thr] in Pc'.
           rewrite set_thr_same in Pc'. specialize (Pc' eq_refl). cbn [pcok] in Pc'.
           destruct q as [|a1 n1|a1 n1 e1 r1|a1 n1| |ba to a1|r1]; cbn [claim] in Ec; try discriminate.
           ++ cbn [stat] in T2. injection T2 as ->. injection Ec as <- <- <-.
              destruct Pc' as (_ & _ & Er). eapply host_alloc_entries; eauto.
           ++ cbn [stat] in T2. injection T2 as ->.
              destruct (Z.eqb_spec (rs_error r1) 0) as [Er|]; [|discriminate]. injection Ec as <- <- <-.
              eapply host_alloc_entries; eauto.
        -- rewrite set_thr_other in Eu by exact Ne. rewrite Fr; [eapply K2; eauto| |].
           ++ destruct Q as (a & n & w & Ec & Hx).
              pose proof (claim_who _ _ _ _ _ _ Ec) as Ew. cbn [is_req is_destroy] in Ew. subst w.
              rewrite (proj1 (J_own _ _ _ _ _ _ Ij _ _ _ _ _ _ _ Eu Ec Hx)); discriminate.
           ++ intros Q2. apply (J_disj _ _ _ _ _ _ Ij u t x Ne).
              ** exists (EvHostAlloc i sz ras mp), q. auto.
              ** exists op, p. auto.
  - destruct IH as (evs & st & tr & s & (A & R & O & Ij) & [K1 K2]).
    exists evs, st, tr, (set_status s t SIdle). split.
    + split; [exact A|]. split; [exact R|].
      split; [|apply J_ret; auto]. apply oat_ret; [exact O|]. rewrite (J_stat _ _ _ _ _ _ Ij), Ht. reflexivity.
    + constructor; cbn [c_thr].
      * intros x mp ras Hm.
        assert (Old : m x = Some (mp, ras) -> ~ claims c op (PDone r) x ->
                 hold_after (c_mem cs) h (LRet t op r) x = Host /\ ent (g_pm st (x / chunk c)) mp ras /\
                 (16 | mp) /\ 0 <= mp).
        { intros Ho Nc. destruct (K1 _ _ _ Ho) as (Hh & Rest). split; [|exact Rest].
          destruct (hold_ret_cases c (c_mem cs) h t op r x) as [[-> _]|(a & n & w & Ec & Hx & _)]; [exact Hh|].
          destruct Nc. exists a, n, w. auto. }
        assert (Unc : m x = Some (mp, ras) -> ~ claims c op (PDone r) x).
        { intros Ho (a & n & w & Ec & Hx). destruct (K1 _ _ _ Ho) as (Hh & _).
          destruct (J_own _ _ _ _ _ _ Ij _ _ _ _ _ _ _ Ht Ec Hx). congruence. }
        destruct op as [i rq|i sz ra m0|i a sz|sh bi|i]; cbn [slab_after] in Hm; auto.
        destruct (Z.eqb_spec (rs_error r) 0) as [Er|]; auto.
        destruct ((rs_ret r <=? x) && (x <? rs_ret r + sz)) eqn:Q; auto.
        injection Hm as <- <-. cbn [hold_after]. rewrite Er. cbn [Z.eqb].
        rewrite set_owner_eq. unfold inblk. rewrite Q. split; [reflexivity|].
        split.
        -- apply (K2 t i sz ra m0 (PDone r) x Ht). exists (rs_ret r), sz, Host. cbn [claim]. rewrite Er.
           split; [reflexivity|]. lia.
        -- pose proof (J_pc _ _ _ _ _ _ Ij _ _ _ Ht) as Pc. cbn [pcok] in Pc. tauto.
      * intros u i sz ras mp p x Eu Q. destruct (Nat.eq_dec u t) as [->|Ne].
        -- rewrite set_thr_same in Eu. discriminate.
        -- rewrite set_thr_other in Eu by exact Ne. eapply K2; eauto.
Qed.
