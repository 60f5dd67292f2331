(** The invariant of the memory service. *)
From Coq Require Import List ZArith Bool Lia Arith.
From Verif Require Import Base RegionModel BuddyModel MemSvcModel PollModel PollProps SvcModel SvcSpec.
Import ListNotations.
Open Scope Z_scope.

(** *** Memory *)
Lemma upd_len {A} (l : list A) i v : length (upd i v l) = length l.
Proof. revert i. induction l as [|x l IH]; intros [|i]; cbn; auto. Qed.
Lemma upd_nth_eq {A} : forall (l : list A) i j v,
  nth_error (upd i v l) j = if Nat.eqb i j then (match nth_error l j with Some _ => Some v | None => None end) else nth_error l j.
Proof. induction l as [|x l IH]; intros [|i] [|j] v; cbn; auto. destruct (Nat.eqb i j); auto. Qed.
Lemma on_box_len m i f : length (g_box (fst (on_box m i f))) = length (g_box m).
Proof.
  unfold on_box. destruct (nth_error (g_box m) i) as [b|]; auto. destruct (b_live b); auto.
  destruct (f (g_pm m) b) as [[p b'] r]. cbn. apply upd_len.
Qed.
(** Whether Library [i] exists and is alive. *)
Definition alive (m : gstate) (i : nat) : bool := match nth_error (g_box m) i with Some b => b_live b | None => false end.
Lemma service_live c pm b rq : b_live (snd (fst (service c pm b rq))) = b_live b.
Proof.
  unfold service, service_alloc, service_dealloc, backend_dealloc.
  repeat match goal with |- context [if ?x then _ else _] => destruct x end; auto.
  destruct (alloc_range (b_free b) (rq_0 rq)) as [[a fr]|]; auto.
Qed.
Lemma on_box_alive m i f j : (forall pm b, b_live b = true -> b_live (snd (fst (f pm b))) = true) ->
  alive (fst (on_box m i f)) j = alive m j.
Proof.
  intros H. unfold on_box, alive. destruct (nth_error (g_box m) i) as [b|] eqn:E; auto. destruct (b_live b) eqn:L; auto.
  specialize (H (g_pm m) b L). destruct (f (g_pm m) b) as [[p b'] r]. cbn in *. rewrite upd_nth_eq.
  destruct (Nat.eqb_spec i j) as [->|N]; auto. rewrite E. congruence.
Qed.
Lemma req_alive c m i rq j : alive (fst (MemSvcModel.step c m (EvReq i rq))) j = alive m j.
Proof. cbn [MemSvcModel.step]. apply on_box_alive. intros. rewrite service_live. auto. Qed.
Lemma hostalloc_alive c m i a b d j : alive (fst (MemSvcModel.step c m (EvHostAlloc i a b d))) j = alive m j.
Proof. cbn [MemSvcModel.step]. apply on_box_alive. intros pm x H. unfold host_alloc. destruct (alloc_range (b_free x) a) as [[]|]; auto. Qed.
Lemma hostfree_alive c m i a b j : alive (fst (MemSvcModel.step c m (EvHostFree i a b))) j = alive m j.
Proof. cbn [MemSvcModel.step]. apply on_box_alive. intros pm x H. unfold host_free, backend_dealloc. auto. Qed.
Lemma create_alive c m shm bits j : alive (fst (MemSvcModel.step c m (EvCreate shm bits))) j = (Nat.eqb j (length (g_box m)) || alive m j).
Proof.
  cbn [MemSvcModel.step fst]. unfold alive. cbn [g_box]. destruct (Nat.eqb_spec j (length (g_box m))) as [->|N]; cbn [orb].
  - rewrite nth_error_app2, Nat.sub_diag by lia. reflexivity.
  - destruct (le_lt_dec (length (g_box m)) j) as [L|L].
    + rewrite (proj2 (nth_error_None (g_box m) j) L). rewrite nth_error_app2 by auto. destruct (j - length (g_box m))%nat as [|k] eqn:D; [lia|].
      cbn. destruct k; reflexivity.
    + rewrite nth_error_app1 by auto. reflexivity.
Qed.
Lemma destroy_alive c m i j : alive (fst (MemSvcModel.step c m (EvDestroy i))) j = negb (Nat.eqb i j) && alive m j.
Proof.
  cbn [MemSvcModel.step]. unfold on_box, alive. destruct (nth_error (g_box m) i) as [b|] eqn:E.
  - destruct (b_live b) eqn:L.
    + cbn. rewrite upd_nth_eq. destruct (Nat.eqb_spec i j) as [->|N]; cbn; auto. rewrite E. reflexivity.
    + cbn. destruct (Nat.eqb_spec i j) as [->|N]; cbn; auto. rewrite E. auto.
  - cbn. destruct (Nat.eqb_spec i j) as [->|N]; cbn; auto. rewrite E. auto.
Qed.
Lemma step_len c m ev : length (g_box (fst (MemSvcModel.step c m ev))) = (length (g_box m) + match ev with EvCreate _ _ => 1 | _ => 0 end)%nat.
Proof.
  destruct ev; cbn [MemSvcModel.step]; rewrite ?on_box_len, ?Nat.add_0_r; auto. cbn. rewrite app_length. reflexivity.
Qed.
Lemma mrun_app c a b m : MemSvcModel.run c m (a ++ b) =
  let '(m1, t1) := MemSvcModel.run c m a in let '(m2, t2) := MemSvcModel.run c m1 b in (m2, t1 ++ t2).
Proof.
  revert m. induction a as [|e a IH]; intros m; cbn [app MemSvcModel.run].
  - destruct (MemSvcModel.run c m b); reflexivity.
  - destruct (MemSvcModel.step c m e) as [m1 r]. rewrite IH. destruct (MemSvcModel.run c m1 a) as [m2 t2].
    destruct (MemSvcModel.run c m2 b); reflexivity.
Qed.

(** *** Sockets *)
Lemma find_map_owner fd i f (l : list (Z * sock packet)) :
  find fd (map (fun x => if Nat.eqb (owner (snd x)) i then (fst x, f (snd x)) else x) l)
  = option_map (fun so => if Nat.eqb (owner so) i then f so else so) (find fd l).
Proof.
  induction l as [|[n so] l IH]; cbn; auto. destruct (Nat.eqb_spec (owner so) i) as [E|E]; cbn; destruct (n =? fd); cbn; auto.
  - rewrite (proj2 (Nat.eqb_eq _ _) E). auto.
  - rewrite (proj2 (Nat.eqb_neq _ _) E). auto.
Qed.
Lemma keys_map_owner i f (l : list (Z * sock packet)) :
  map fst (map (fun x => if Nat.eqb (owner (snd x)) i then (fst x, f (snd x)) else x) l) = map fst l.
Proof. rewrite map_map. apply map_ext. intros [n so]. cbn. destruct (Nat.eqb (owner so) i); auto. Qed.

(** *** The invariant *)
Record core (kq : bool) (s : st) : Prop := {
  c_nd : NoDup (map fst (socks (kn s)));
  c_rnd : NoDup (map fst (ranges s));
  c_ranges : forall fd, find fd (ranges s) = option_map owner (find fd (socks (kn s)));
  c_reg : forall fd, In fd (reg (kn s)) -> find fd (socks (kn s)) <> None;
  c_polled : forall fd, find fd (socks (kn s)) <> None -> In fd (reg (kn s)) \/ th s = Picked fd true;
  c_owner : forall fd so, find fd (socks (kn s)) = Some so -> (owner so < length (g_box (mem s)))%nat;
  c_one : forall f1 f2 s1 s2, find f1 (socks (kn s)) = Some s1 -> find f2 (socks (kn s)) = Some s2 -> owner s1 = owner s2 -> f1 = f2;
  c_th : forall fd eof, th s = Picked fd eof -> exists so, find fd (socks (kn s)) = Some so
           /\ (eof = true -> hup so = true) /\ (eof = false -> inq so <> []) }.

Lemma core_init kq : core kq init.
Proof. constructor; cbn; intros; try constructor; try discriminate; tauto. Qed.

(** Forgetting a descriptor. *)
Lemma remove_known fd s i : find fd (ranges s) = Some i -> remove_fd fd s = St (k_close fd (kn s)) (del fd (ranges s)) (th s) (mem s).
Proof. unfold remove_fd. intros ->. auto. Qed.
Lemma core_remove kq fd s : core kq s -> (th s = Idle \/ th s = Picked fd true) ->
  core kq (St (k_close fd (kn s)) (del fd (ranges s)) Idle (mem s)).
Proof.
  intros [ND RND RA RG PO OW ON TH] T. constructor; cbn [kn ranges th mem k_close socks reg].
  - apply nodup_del; auto.
  - apply nodup_del; auto.
  - intros n. destruct (Z.eq_dec n fd) as [->|N]; [rewrite !find_del_same; auto|rewrite !find_del_other; auto].
  - intros n H. apply in_unlist in H. rewrite find_del_other by tauto. apply RG. tauto.
  - intros n H. left. apply in_unlist. destruct (Z.eq_dec n fd) as [->|N]; [rewrite find_del_same in H; tauto|].
    rewrite find_del_other in H by auto. split; auto. destruct (PO _ H) as [|X]; auto. destruct T as [T|T]; rewrite T in X; [discriminate|]. congruence.
  - intros n so H. destruct (Z.eq_dec n fd) as [->|N]; [rewrite find_del_same in H by auto; discriminate|]. rewrite find_del_other in H by auto. eauto.
  - intros a b sa sb H1 H2 E. destruct (Z.eq_dec a fd) as [->|N]; [rewrite find_del_same in H1 by auto; discriminate|].
    destruct (Z.eq_dec b fd) as [->|N2]; [rewrite find_del_same in H2 by auto; discriminate|].
    rewrite find_del_other in H1, H2 by auto. eauto.
  - discriminate.
Qed.
Lemma core_mem kq s m : core kq s -> length (g_box m) = length (g_box (mem s)) -> core kq (St (kn s) (ranges s) (th s) m).
Proof. intros [ND RND RA RG PO OW ON TH] L. constructor; cbn; auto. rewrite L. auto. Qed.
Lemma core_at_end kq s i f : core kq s -> (forall so, owner (f so) = owner so) -> (forall so, hup so = true -> hup (f so) = true) ->
  (forall so, inq so <> [] -> inq (f so) <> []) ->
  core kq (St (at_end i f (kn s)) (ranges s) (th s) (mem s)).
Proof.
  intros [ND RND RA RG PO OW ON TH] FO FH FQ. constructor; cbn [kn ranges th mem at_end socks reg]; auto.
  - rewrite keys_map_owner. auto.
  - intros n. rewrite find_map_owner, RA. destruct (find n (socks (kn s))) as [so|]; cbn; auto. destruct (Nat.eqb (owner so) i); auto.
  - intros n H. rewrite find_map_owner. apply RG in H. destruct (find n (socks (kn s))); [discriminate|auto].
  - intros n H. rewrite find_map_owner in H. apply PO. destruct (find n (socks (kn s))); [discriminate|auto].
  - intros n so H. rewrite find_map_owner in H. destruct (find n (socks (kn s))) as [s0|] eqn:F; [|discriminate]. cbn in H. injection H as <-.
    destruct (Nat.eqb (owner s0) i); rewrite ?FO; eauto.
  - intros a b sa sb H1 H2 E. rewrite find_map_owner in H1, H2.
    destruct (find a (socks (kn s))) as [s1|] eqn:F1; [|discriminate]. destruct (find b (socks (kn s))) as [s2|] eqn:F2; [|discriminate].
    cbn in H1, H2. injection H1 as <-. injection H2 as <-. eapply ON; eauto.
    destruct (Nat.eqb (owner s1) i), (Nat.eqb (owner s2) i); rewrite ?FO in E; auto.
  - intros n e H. destruct (TH _ _ H) as (so & F & A & B). exists (if Nat.eqb (owner so) i then f so else so). rewrite find_map_owner, F. cbn.
    split; auto. destruct (Nat.eqb (owner so) i); auto.
Qed.
Lemma core_take kq s fd so q : core kq s -> find fd (socks (kn s)) = Some so -> (forall e, th s <> Picked fd e) ->
  core kq (St (Kern (alter fd (fun s => Sock (owner s) q (hup s)) (socks (kn s))) (reg (kn s))) (ranges s) (th s) (mem s)).
Proof.
  intros [ND RND RA RG PO OW ON TH] F NT. constructor; cbn [kn ranges th mem socks reg]; auto.
  - rewrite keys_alter. auto.
  - intros n. rewrite find_alter, RA. destruct (Z.eqb_spec n fd) as [->|N]; auto. rewrite F. reflexivity.
  - intros n H. rewrite find_alter. apply RG in H. destruct (n =? fd); auto. destruct (find n (socks (kn s))); [discriminate|auto].
  - intros n H. apply PO. rewrite find_alter in H. destruct (n =? fd); auto. destruct (find n (socks (kn s))); [discriminate|auto].
  - intros n s0 H. rewrite find_alter in H. destruct (Z.eqb_spec n fd) as [->|N]; eauto. rewrite F in H. cbn in H. injection H as <-. cbn. eauto.
  - intros a b sa sb H1 H2 E. rewrite find_alter in H1, H2.
    assert (X : exists s1, find a (socks (kn s)) = Some s1 /\ owner s1 = owner sa).
    { destruct (Z.eqb_spec a fd) as [->|N]; [rewrite F in H1; cbn in H1; injection H1 as <-|]; eauto. }
    assert (Y : exists s2, find b (socks (kn s)) = Some s2 /\ owner s2 = owner sb).
    { destruct (Z.eqb_spec b fd) as [->|N]; [rewrite F in H2; cbn in H2; injection H2 as <-|]; eauto. }
    destruct X as (s1 & X1 & X2), Y as (s2 & Y1 & Y2). eapply ON; eauto. congruence.
  - intros n e H. destruct (TH _ _ H) as (s0 & F0 & A & B). exists s0. rewrite find_alter.
    destruct (Z.eqb_spec n fd) as [->|N]; [exfalso; eapply NT; eauto|auto].
Qed.
Lemma core_create c kq shm bits fd s : core kq s -> find fd (socks (kn s)) = None ->
  step c kq (Create shm bits fd) s =
    (St (Kern ((fd, Sock (length (g_box (mem s))) [] false) :: socks (kn s)) (fd :: reg (kn s)))
        ((fd, length (g_box (mem s))) :: ranges s) (th s) (fst (MemSvcModel.step c (mem s) (EvCreate shm bits))), [])
  /\ core kq (fst (step c kq (Create shm bits fd) s)).
Proof.
  intros C F. assert (E : step c kq (Create shm bits fd) s =
    (St (Kern ((fd, Sock (length (g_box (mem s))) [] false) :: socks (kn s)) (fd :: reg (kn s)))
        ((fd, length (g_box (mem s))) :: ranges s) (th s) (fst (MemSvcModel.step c (mem s) (EvCreate shm bits))), [])).
  { cbn [step]. unfold create, add, k_open. cbn [socks reg find]. rewrite Z.eqb_refl.
    destruct (member fd (reg (kn s))) eqn:M; [apply member_in in M; exfalso; eapply c_reg; eauto|].
    rewrite (c_ranges kq s C fd), F. reflexivity. }
  split; [exact E|]. rewrite E. destruct C as [ND RND RA RG PO OW ON TH].
  pose proof (step_len c (mem s) (EvCreate shm bits)) as SL.
  constructor; cbn [fst kn ranges th mem socks reg map find]; auto.
  - constructor; auto. apply find_none. auto.
  - constructor; auto. apply find_none. rewrite RA, F. auto.
  - intros n. destruct (fd =? n); auto.
  - intros n [->|H]; [rewrite Z.eqb_refl; discriminate|]. destruct (fd =? n); [discriminate|auto].
  - intros n H. destruct (Z.eqb_spec fd n) as [->|N]; [left; left; auto|]. destruct (PO _ H); auto. left. right. auto.
  - intros n so H. rewrite SL. destruct (fd =? n); [injection H as <-; cbn; lia|]. apply OW in H. lia.
  - intros a b sa sb H1 H2 EQ. destruct (Z.eqb_spec fd a) as [Ea|Na], (Z.eqb_spec fd b) as [Eb|Nb]; try congruence.
    + injection H1 as <-. apply OW in H2. cbn in EQ. lia.
    + injection H2 as <-. apply OW in H1. cbn in EQ. lia.
    + eauto.
  - intros n e H. destruct (TH _ _ H) as (so & G & A & B). exists so. destruct (Z.eqb_spec fd n) as [->|N]; [congruence|auto].
Qed.

(** The loop body, by cases. *)
Definition forget (fd : Z) (k : kern packet) (m : gstate) (s : st) : st := St (k_close fd k) (del fd (ranges s)) Idle m.
Definition taken (fd : Z) (q : list packet) (k : kern packet) : kern packet :=
  Kern (alter fd (fun s => Sock (owner s) q (hup s)) (socks k)) (reg k).
Inductive served (c : cfg) (b : bool) (s : st) (fd : Z) (i : nat) (so : sock packet) : st -> list out -> Prop :=
| s_eof : th s = Picked fd true -> served c b s fd i so (forget fd (kn s) (mem s) s) []
| s_fault : th s = Picked fd false -> alive (mem s) i = false -> served c b s fd i so (St (kn s) (ranges s) (Fault i) (mem s)) []
| s_reply rq q m rs : th s = Picked fd false -> alive (mem s) i = true -> inq so = Req rq :: q -> b = true ->
    MemSvcModel.step c (mem s) (EvReq i rq) = (m, rs) ->
    served c b s fd i so (St (taken fd q (kn s)) (ranges s) Idle m) [Reply i i rq rs]
| s_unsent rq q m rs : th s = Picked fd false -> alive (mem s) i = true -> inq so = Req rq :: q -> b = false ->
    MemSvcModel.step c (mem s) (EvReq i rq) = (m, rs) ->
    served c b s fd i so (forget fd (taken fd q (kn s)) m s) [Unsent i rq rs; Kill i]
| s_bad q : th s = Picked fd false -> alive (mem s) i = true -> inq so = Bad :: q ->
    served c b s fd i so (forget fd (taken fd q (kn s)) (mem s) s) [Kill i].
Lemma alter_ext {A} fd (f g : A -> A) l : (forall a, find fd l = Some a -> f a = g a) -> alter fd f l = alter fd g l.
Proof. induction l as [|[n a] l IH]; cbn; auto. destruct (n =? fd); intros H; [rewrite H; auto|rewrite IH; auto]. Qed.
Lemma serve_cases c kq b s fd eof : core kq s -> th s = Picked fd eof ->
  exists so, find fd (socks (kn s)) = Some so /\ find fd (ranges s) = Some (owner so)
    /\ served c b s fd (owner so) so (fst (serve c b s)) (snd (serve c b s)).
Proof.
  intros C T. destruct (c_th _ _ C _ _ T) as (so & F & A & B). exists so. split; auto.
  assert (R : find fd (ranges s) = Some (owner so)) by (rewrite (c_ranges _ _ C), F; auto). split; auto.
  unfold serve. rewrite T. destruct eof.
  - erewrite remove_known by (cbn [ranges]; eauto). cbn. apply s_eof. auto.
  - cbn [ranges kn mem]. rewrite R. specialize (B eq_refl).
    destruct (nth_error (g_box (mem s)) (owner so)) as [bx|] eqn:N.
    + destruct (b_live bx) eqn:L; cbn [negb].
      * assert (AL : alive (mem s) (owner so) = true) by (unfold alive; rewrite N; auto).
        unfold k_take. rewrite F. destruct (inq so) as [|p q] eqn:Q; [congruence|].
        assert (TK : Kern (alter fd (fun s0 => Sock (owner s0) (tl (inq s0)) (hup s0)) (socks (kn s))) (reg (kn s)) = taken fd q (kn s)).
        { unfold taken. f_equal. apply alter_ext. intros a X. rewrite F in X. injection X as <-. rewrite Q. reflexivity. }
        rewrite TK. destruct p as [rq|].
        -- destruct (MemSvcModel.step c (mem s) (EvReq (owner so) rq)) as [m rs] eqn:ST. destruct b.
           ++ assert (FK : find fd (socks (taken fd q (kn s))) = Some (Sock (owner so) q (hup so))).
              { unfold taken. cbn [socks]. rewrite find_alter, Z.eqb_refl, F. reflexivity. }
              rewrite FK. cbn [fst snd owner]. eapply s_reply; eauto.
           ++ erewrite remove_known by (cbn [ranges]; eauto). cbn. eapply s_unsent; eauto.
        -- erewrite remove_known by (cbn [ranges]; eauto). cbn. eapply s_bad; eauto.
      * cbn. apply s_fault; auto. unfold alive. rewrite N. auto.
    + cbn. apply s_fault; auto. unfold alive. rewrite N. auto.
Qed.
Lemma core_idle kq s : core kq s -> (forall fd, th s <> Picked fd true) -> core kq (St (kn s) (ranges s) Idle (mem s)).
Proof.
  intros [ND RND RA RG PO OW ON TH] T. constructor; cbn; auto; try discriminate.
  intros fd H. destruct (PO _ H) as [|X]; auto. exfalso. eapply T; eauto.
Qed.
Lemma core_fault kq s i : core kq s -> (forall fd, th s <> Picked fd true) -> core kq (St (kn s) (ranges s) (Fault i) (mem s)).
Proof.
  intros [ND RND RA RG PO OW ON TH] T. constructor; cbn; auto; try discriminate.
  intros fd H. destruct (PO _ H) as [|X]; auto. exfalso. eapply T; eauto.
Qed.
Lemma core_exited kq s : core kq s -> th s = Idle -> core kq (St (kn s) (ranges s) Exited (mem s)).
Proof.
  intros [ND RND RA RG PO OW ON TH] T. constructor; cbn; auto; try discriminate.
  intros fd H. destruct (PO _ H) as [|X]; auto. congruence.
Qed.
Lemma req_len c m i rq m' rs : MemSvcModel.step c m (EvReq i rq) = (m', rs) -> length (g_box m') = length (g_box m).
Proof. intros E. pose proof (step_len c m (EvReq i rq)) as L. rewrite E in L. cbn in L. lia. Qed.
Lemma core_serve c kq b s fd eof : core kq s -> th s = Picked fd eof -> core kq (fst (serve c b s)).
Proof.
  intros C T. destruct (serve_cases c kq b s fd eof C T) as (so & F & R & S).
  assert (NT : eof = false -> forall n, th s <> Picked n true) by (intros ->; rewrite T; congruence).
  inversion S; subst; clear S.
  - apply (core_remove kq fd s); auto.
  - apply core_fault; auto. apply NT. congruence.
  - apply (core_mem kq (St (taken fd q (kn s)) (ranges s) Idle (mem s)) m); [|cbn; eauto using req_len].
    apply (core_take kq (St (kn s) (ranges s) Idle (mem s)) fd so q); auto; [apply core_idle; auto; apply NT; congruence|cbn; discriminate].
  - unfold forget. apply (core_mem kq (St (k_close fd (taken fd q (kn s))) (del fd (ranges s)) Idle (mem s)) m); [|cbn; eauto using req_len].
    apply (core_remove kq fd (St (taken fd q (kn s)) (ranges s) Idle (mem s))); auto.
    apply (core_take kq (St (kn s) (ranges s) Idle (mem s)) fd so q); auto; [apply core_idle; auto; apply NT; congruence|cbn; discriminate].
  - unfold forget. apply (core_remove kq fd (St (taken fd q (kn s)) (ranges s) Idle (mem s))); auto.
    apply (core_take kq (St (kn s) (ranges s) Idle (mem s)) fd so q); auto; [apply core_idle; auto; apply NT; congruence|cbn; discriminate].
Qed.
(** Poll, by cases. *)
Lemma poll_step kq l s : core kq s -> th s = Idle -> Forall (answer_ok (kn s)) l ->
  do_poll kq l s = s
  \/ (do_poll kq l s = St (kn s) (ranges s) Exited (mem s) /\ (In AFail l \/ kq = true))
  \/ exists fd so, find fd (socks (kn s)) = Some so /\ In fd (reg (kn s)) /\ (inq so <> [] \/ hup so = true)
       /\ do_poll kq l s = St (Kern (socks (kn s)) (if hup so && negb kq then unlist fd (reg (kn s)) else reg (kn s))) (ranges s) (Picked fd (hup so)) (mem s).
Proof.
  intros C T A. unfold do_poll. rewrite T. destruct (poll kq l (kn s)) as [k r] eqn:E. apply poll_cases in E.
  destruct E as [(-> & ->)|[(-> & -> & X)|(fd & h & -> & I & ->)]].
  - left. destruct s; cbn in *. subst. auto.
  - right. left. auto.
  - right. right. rewrite Forall_forall in A. apply A in I. destruct I as (I & so & F & B & ->). exists fd, so.
    split; auto. split; auto. split; auto. destruct (hup so && negb kq); auto. destruct (kn s); auto.
Qed.
Lemma core_poll kq l s : core kq s -> th s = Idle -> Forall (answer_ok (kn s)) l -> core kq (do_poll kq l s).
Proof.
  intros C T A. destruct (poll_step kq l s C T A) as [->|[(-> & _)|(fd & so & F & I & B & ->)]]; auto using core_exited.
  destruct C as [ND RND RA RG PO OW ON TH]. constructor; cbn [kn ranges th mem socks reg]; auto.
  - intros n H. apply RG. destruct (hup so && negb kq); auto. apply in_unlist in H. tauto.
  - intros n H. destruct (PO _ H) as [X|X]; [|congruence]. destruct (Z.eq_dec n fd) as [->|N].
    + destruct (hup so); cbn; auto.
    + left. destruct (hup so && negb kq); auto. apply in_unlist. auto.
  - intros n e H. injection H as <- <-. exists so. split; auto. split; auto. intros HF. destruct B; auto. congruence.
Qed.

Lemma core_step c kq leak o s s' x : core kq s -> possible leak o s -> step c kq o s = (s', x) -> core kq s'.
Proof.
  intros C P E. destruct o as [shm bits fd|i size ras mp|i a size|i|i p|i|l|b]; cbn [possible] in P.
  - destruct (core_create c kq shm bits fd s C P) as [_ X]. rewrite E in X. exact X.
  - injection E as <- <-. apply core_mem; auto. pose proof (step_len c (mem s) (EvHostAlloc i size ras mp)) as L. rewrite Nat.add_0_r in L. exact L.
  - injection E as <- <-. apply core_mem; auto. pose proof (step_len c (mem s) (EvHostFree i a size)) as L. rewrite Nat.add_0_r in L. exact L.
  - injection E as <- <-. apply core_mem; auto. pose proof (step_len c (mem s) (EvDestroy i)) as L. rewrite Nat.add_0_r in L. exact L.
  - injection E as <- <-. apply core_at_end; auto.
    + intros so. destruct (hup so); auto.
    + intros so H. rewrite H. auto.
    + intros so H. destruct (hup so); auto. cbn. destruct (inq so); discriminate.
  - injection E as <- <-. apply core_at_end; auto.
  - injection E as <- <-. destruct P. apply core_poll; auto.
  - destruct P as (fd & eof & T & _). cbn [step] in E. pose proof (core_serve c kq b s fd eof C T) as X. rewrite E in X. exact X.
Qed.
Lemma core_runs c kq leak tr s : runs c kq leak tr s -> core kq s.
Proof. induction 1; [apply core_init|eapply core_step; eauto]. Qed.
