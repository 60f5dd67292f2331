(** Claimed theorems about the fairness of the memory service (C89). *)
From Coq Require Import List ZArith Bool Lia Arith Permutation.
From Verif Require Import Base RegionModel BuddyModel MemSvcModel PollModel PollProps SvcModel SvcSpec SvcProof SvcProps FairModel FairSpec.
From Verif Require MemSvcSpec MemSvcProps WorkModel WorkProps.
Import ListNotations.
Open Scope Z_scope.

Lemma next_true k : forall r fd h r', next k r = (Some (fd, h), r') ->
  In fd r /\ In fd (reg k) /\ exists so, find fd (socks k) = Some so /\ readable so = true /\ h = hup so.
Proof.
  induction r as [|g r IH]; intros fd h r' H; cbn [next] in H; [discriminate|].
  destruct (find g (socks k)) as [so|] eqn:F; [|apply IH in H; cbn; tauto].
  destruct (member g (reg k) && readable so) eqn:M; [|apply IH in H; cbn; tauto].
  apply andb_true_iff in M as [M1 M2]. injection H as <- <- <-. apply member_in in M1. split; [left; reflexivity|]. split; [exact M1|]. eauto.
Qed.
(** C89. Such histories are histories of SvcModel: all of C42 holds of them. *)
Theorem fair_runs_are_runs c leak tr s r : fair_runs c leak tr s r -> runs c false leak tr s.
Proof. induction 1; econstructor; eauto. Qed.
(** The answers of the list are ones that PollModel's kernel may give. *)
Lemma answers_ok n k r : Forall (answer_ok k) (answers n k r).
Proof.
  unfold answers. apply Forall_app. split; [apply Forall_forall; intros x X; apply repeat_spec in X; subst; exact I|].
  destruct (next k r) as [[[fd h]|] r'] eqn:N; cbn [fst]; constructor; [|constructor].
  apply next_true in N as (_ & Hr & so & F & R & ->). split; [exact Hr|]. exists so. split; [exact F|]. split; [|reflexivity].
  unfold readable in R. destruct (inq so); [right; exact R|left; discriminate].
Qed.
(** C89. The kernel that takes turns always has an answer that the service may get. *)
Theorem fair_poll_is_possible leak n s r : th s = Idle -> possible leak (Poll (answers n (kn s) r)) s.
Proof. intros T. split; [exact T|apply answers_ok]. Qed.
Lemma answers_poll n k r : poll false (answers n k r) k = epoll_poll (answers O k r) k.
Proof. unfold poll, answers. induction n as [|n IH]; [reflexivity|]. exact IH. Qed.

Lemma fair_fun c leak tr s r : fair_runs c leak tr s r -> forall s' r', fair_runs c leak tr s' r' -> s' = s /\ r' = r.
Proof.
  induction 1 as [|tr s r o s1 x R IH P A E]; intros s' r' H.
  - inversion H as [|tr0 ? ? ? ? ? ? ? ? ? E0]; [auto|]. destruct tr0; discriminate.
  - inversion H as [E0|tr0 s0 r0 o0 s2 x0 R0 P0 A0 E0 E1 E2 E3]; [destruct tr; discriminate|].
    apply app_inj_tail in E1 as [-> E1]. injection E1 as -> ->. destruct (IH _ _ R0) as [-> ->]. rewrite E in E0. injection E0 as ->. auto.
Qed.

(** ** The ready list *)
Record rinv (s : st) (r : list Z) : Prop := {
  r_nd : NoDup r;
  r_reg : incl r (reg (kn s));
  r_all : forall fd so, In fd (reg (kn s)) -> find fd (socks (kn s)) = Some so -> readable so = true -> In fd r }.
Lemma next_keeps k : forall r, NoDup r -> NoDup (snd (next k r)) /\ incl (snd (next k r)) r /\
  (forall fd so, In fd r -> In fd (reg k) -> find fd (socks k) = Some so -> readable so = true -> In fd (snd (next k r))).
Proof.
  induction r as [|g r IH]; intros N; cbn [next]; [split; [constructor|split; [apply incl_refl|intros fd so []]]|].
  inversion N as [|? ? N1 N2]; subst. destruct (IH N2) as (I1 & I2 & I3).
  assert (Drop : (forall so, find g (socks k) = Some so -> In g (reg k) -> readable so = true -> False) ->
    NoDup (snd (next k r)) /\ incl (snd (next k r)) (g :: r) /\
    (forall fd so, In fd (g :: r) -> In fd (reg k) -> find fd (socks k) = Some so -> readable so = true -> In fd (snd (next k r)))).
  { intros D. split; [exact I1|]. split; [apply incl_tl; exact I2|]. intros fd so [<-|X] Rg F Rd; [destruct (D so F Rg Rd)|eauto]. }
  destruct (find g (socks k)) as [so|] eqn:F; [|apply Drop; discriminate].
  destruct (member g (reg k)) eqn:M; cbn [andb].
  2:{ apply Drop. intros so' _ X. apply member_in in X. congruence. }
  destruct (readable so) eqn:Rd; [|apply Drop; intros so' X; injection X as <-; congruence]. cbn [snd].
  split; [|split].
  - apply (Permutation_NoDup (l := g :: r)); [apply Permutation_cons_append|exact N].
  - intros x X. apply in_app_or in X as [X|[<-|[]]]; [right; exact X|left; reflexivity].
  - intros fd so' X _ _ _. apply in_or_app. destruct X as [<-|X]; [right; left; reflexivity|left; exact X].
Qed.
Lemma rinv_filter s' r : NoDup r ->
  (forall fd so, In fd (reg (kn s')) -> find fd (socks (kn s')) = Some so -> readable so = true -> In fd r) ->
  rinv s' (filter (fun fd => member fd (reg (kn s'))) r).
Proof.
  intros N A. constructor.
  - apply NoDup_filter. exact N.
  - intros x X. apply filter_In in X as [_ X]. apply member_in. exact X.
  - intros fd so Rg F Rd. apply filter_In. split; [eauto|apply member_in; exact Rg].
Qed.
Lemma in_find {A} fd (a : A) : forall l, find fd l = Some a -> In (fd, a) l.
Proof. induction l as [|[n b] l IH]; cbn; [discriminate|]. destruct (Z.eqb_spec n fd) as [->|N]; [intros X; injection X as ->; auto|auto]. Qed.
Lemma nodup_fst_filter {A} (p : Z * A -> bool) : forall l, NoDup (map fst l) -> NoDup (map fst (filter p l)).
Proof.
  induction l as [|x l IH]; cbn [map filter]; intros N; [constructor|]. inversion N as [|? ? N1 N2]; subst.
  destruct (p x); [|auto]. cbn [map]. constructor; [|auto]. intros X. apply N1. apply in_map_iff in X as (y & Y1 & Y2). apply filter_In in Y2 as [Y2 _].
  rewrite <- Y1. apply in_map. exact Y2.
Qed.
Lemma nodup_app {A} (a b : list A) : NoDup a -> NoDup b -> (forall x, In x a -> In x b -> False) -> NoDup (a ++ b).
Proof.
  induction a as [|x a IH]; intros Na Nb D; [exact Nb|]. inversion Na as [|? ? N1 N2]; subst. cbn [app]. constructor.
  - intros X. apply in_app_or in X as [X|X]; [auto|]. apply (D x); [left; reflexivity|exact X].
  - apply IH; auto. intros y Y1 Y2. apply (D y); [right; exact Y1|exact Y2].
Qed.
Lemma woken_nodup i k r : NoDup (map fst (socks k)) -> NoDup r -> NoDup (woken i k r).
Proof.
  intros N R. apply nodup_app; [exact R|apply NoDup_filter, nodup_fst_filter; exact N|].
  intros x X Y. apply filter_In in Y as [_ Y]. apply andb_true_iff in Y as [_ Y]. apply negb_true_iff in Y. apply member_in in X. congruence.
Qed.
Lemma woken_in i k r fd so : find fd (socks k) = Some so -> owner so = i -> In fd (reg k) -> In fd (woken i k r).
Proof.
  intros F O Rg. unfold woken. apply in_or_app. destruct (member fd r) eqn:M; [left; apply member_in; exact M|]. right.
  apply filter_In. split; [|rewrite M; apply member_in in Rg; rewrite Rg; reflexivity].
  apply in_map_iff. exists (fd, so). split; [reflexivity|]. apply filter_In. split; [apply in_find; exact F|]. apply Nat.eqb_eq. exact O.
Qed.
Lemma find_at_end fd i f k : find fd (socks (at_end i f k)) = option_map (fun so => if Nat.eqb (owner so) i then f so else so) (find fd (socks k)).
Proof. apply find_map_owner. Qed.
Lemma rinv_step c leak o s s' x r : core false s -> rinv s r -> possible leak o s -> step c false o s = (s', x) -> rinv s' (ready_after o s s' r).
Proof.
  intros C [N G A] P E. pose proof (core_step _ _ _ _ _ _ _ C P E) as C'. unfold ready_after.
  destruct o as [shm bits fd|i size ras mp|i a size|i|i p|i|l|b]; cbn [possible] in P.
  - destruct (core_create c false shm bits fd s C P) as [Y _]. rewrite E in Y. apply pair_equal_spec in Y as [Y _]. subst s'. apply rinv_filter; [exact N|].
    cbn [kn reg socks find]. intros n so Rg F Rd. destruct (Z.eqb_spec fd n) as [->|Ne].
    + injection F as <-. discriminate.
    + destruct Rg as [->|Rg]; [destruct (Ne eq_refl)|]. eauto.
  - injection E as <- <-. apply rinv_filter; [exact N|exact A].
  - injection E as <- <-. apply rinv_filter; [exact N|exact A].
  - injection E as <- <-. apply rinv_filter; [exact N|exact A].
  - injection E as <- <-. apply rinv_filter; [apply woken_nodup; [exact (c_nd _ _ C')|exact N]|]. intros n so Rg F Rd.
    destruct (Nat.eq_dec (owner so) i) as [O|O]; [eapply woken_in; eauto|]. unfold woken. apply in_or_app. left.
    cbn [kn] in *. rewrite find_at_end in F. destruct (find n (socks (kn s))) as [s0|] eqn:F0; [|discriminate]. cbn in F. injection F as <-.
    destruct (Nat.eqb_spec (owner s0) i) as [O0|O0]; [exfalso; apply O; destruct (hup s0); exact O0|]. eauto.
  - injection E as <- <-. apply rinv_filter; [apply woken_nodup; [exact (c_nd _ _ C')|exact N]|]. intros n so Rg F Rd.
    destruct (Nat.eq_dec (owner so) i) as [O|O]; [eapply woken_in; eauto|]. unfold woken. apply in_or_app. left.
    cbn [kn] in *. rewrite find_at_end in F. destruct (find n (socks (kn s))) as [s0|] eqn:F0; [|discriminate]. cbn in F. injection F as <-.
    destruct (Nat.eqb_spec (owner s0) i) as [O0|O0]; [exfalso; apply O; exact O0|]. eauto.
  - destruct P as [T Ok]. cbn [step] in E. injection E as <- <-. destruct (next_keeps (kn s) r N) as (N1 & N2 & N3).
    apply rinv_filter; [exact N1|]. intros n so Rg F Rd.
    assert (Rg0 : In n (reg (kn s)) /\ find n (socks (kn s)) = Some so).
    { revert Rg F. destruct (poll_step false l s C T Ok) as [->|[(-> & _)|(fd & so0 & F0 & I0 & B0 & ->)]]; cbn [kn reg socks]; auto.
      destruct (hup so0 && negb false); auto. intros Rg F. apply in_unlist in Rg. tauto. }
    destruct Rg0. eauto.
  - destruct P as (fd & eof & T & _). apply rinv_filter; [exact N|]. cbn [step] in E.
    destruct (serve_cases c false b s fd eof C T) as (so & F & Rn & S). rewrite E in S. cbn [fst snd] in S. intros n so' Rg Fn Rd.
    assert (Old : In n (reg (kn s)) /\ exists so0, find n (socks (kn s)) = Some so0 /\ readable so0 = true); [|destruct Old as (O1 & so0 & O2 & O3); eauto].
    inversion S; subst; cbn [kn forget k_close taken socks reg] in *.
    + apply in_unlist in Rg as [Rg Ne]. rewrite find_del_other in Fn by exact Ne. eauto.
    + eauto.
    + rewrite find_alter in Fn. destruct (Z.eqb_spec n fd) as [->|Ne]; [|eauto]. split; [exact Rg|]. exists so. split; [exact F|]. unfold readable.
      match goal with X : inq so = _ |- _ => rewrite X end. reflexivity.
    + apply in_unlist in Rg as [Rg Ne]. rewrite find_del_other, find_alter in Fn by exact Ne. destruct (Z.eqb_spec n fd); [congruence|eauto].
    + apply in_unlist in Rg as [Rg Ne]. rewrite find_del_other, find_alter in Fn by exact Ne. destruct (Z.eqb_spec n fd); [congruence|eauto].
Qed.
Lemma rinv_runs c leak tr s r : fair_runs c leak tr s r -> rinv s r.
Proof.
  induction 1 as [|tr s r o s' x R IH P A E].
  - constructor; [constructor|intros x []|intros fd so []].
  - eapply rinv_step; eauto. eapply core_runs. eapply fair_runs_are_runs. exact R.
Qed.

(** ** Turns *)

(** Descriptor [fd] has its turn in at most [m] rounds. *)
Definition due (s : st) (r : list Z) (fd : Z) (m : nat) : Prop :=
  match th s with
  | Picked g _ => if g =? fd then (1 <= m)%nat else exists a b, r = a ++ fd :: b /\ (length a + 2 <= m)%nat
  | _ => exists a b, r = a ++ fd :: b /\ (length a + 1 <= m)%nat
  end.
Definition eager (s : st) (fd : Z) (i : nat) : Prop := exists so, find fd (socks (kn s)) = Some so /\ owner so = i /\ readable so = true.

Lemma filter_split (p : Z -> bool) a fd b : p fd = true -> filter p (a ++ fd :: b) = filter p a ++ fd :: filter p b.
Proof. intros H. rewrite filter_app. cbn [filter]. rewrite H. reflexivity. Qed.
Lemma filter_shorter (p : Z -> bool) a : (length (filter p a) <= length a)%nat.
Proof. induction a as [|x a IH]; cbn; [lia|]. destruct (p x); cbn; lia. Qed.
Lemma next_before k fd so b : In fd (reg k) -> find fd (socks k) = Some so -> readable so = true -> forall a,
  exists g h r', next k (a ++ fd :: b) = (Some (g, h), r') /\
    (g = fd \/ exists a2 b2, r' = a2 ++ fd :: b2 /\ (length a2 + 1 <= length a)%nat).
Proof.
  intros Rg F Rd. induction a as [|x a IH]; cbn [app next].
  - rewrite F, Rd. apply member_in in Rg. rewrite Rg. cbn [andb]. eauto 6.
  - destruct IH as (g & h & r' & E & D).
    assert (Skip : exists g0 h0 r0, next k (a ++ fd :: b) = (Some (g0, h0), r0) /\
      (g0 = fd \/ exists a2 b2, r0 = a2 ++ fd :: b2 /\ (length a2 + 1 <= length (x :: a))%nat)).
    { exists g, h, r'. split; [exact E|]. destruct D as [D|(a2 & b2 & D & L)]; [left; exact D|right; exists a2, b2; cbn; split; [exact D|lia]]. }
    destruct (find x (socks k)) as [sx|]; [|exact Skip]. destruct (member x (reg k) && readable sx); [|exact Skip].
    exists x, (hup sx), ((a ++ fd :: b) ++ [x]). split; [reflexivity|]. right. exists a, (b ++ [x]). rewrite <- app_assoc. cbn. split; [reflexivity|lia].
Qed.

Lemma known_fd s fd i : core false s -> eager s fd i -> find fd (ranges s) = Some i.
Proof. intros C (so & F & O & _). rewrite (c_ranges _ _ C), F. cbn. congruence. Qed.
Definition served_now (o : op) : nat := match o with Serve _ => 1 | _ => 0 end.

(** One step: the sandbox is attended to or forgotten, or its turn comes nearer. *)
Lemma turn_step c leak o s s' x r fd i m : core false s -> rinv s r -> possible leak o s ->
  (forall l, o = Poll l -> exists n, l = answers n (kn s) r) -> step c false o s = (s', x) ->
  eager s fd i -> due s r fd m ->
  (exists z, In z x /\ about i z) \/ ~ known i s' \/ (exists j, th s' = Fault j /\ (j = i \/ (2 <= m)%nat)) \/
  (eager s' fd i /\ exists m', due s' (ready_after o s s' r) fd m' /\ (m' + served_now o = m)%nat).
Proof.
  intros C V P A E (so & F & O & Rd) D. pose proof (core_step _ _ _ _ _ _ _ C P E) as C'. pose proof (rinv_step _ _ _ _ _ _ _ C V P E) as V'.
  (* steps that leave the thread where it is and keep the list *)
  assert (Same : forall t, th s' = th s -> (exists so', find fd (socks (kn s')) = Some so' /\ owner so' = i /\ readable so' = true) ->
    ready_after o s s' r = filter (fun n => member n (reg (kn s'))) (r ++ t) -> served_now o = 0%nat ->
    (eager s' fd i /\ exists m', due s' (ready_after o s s' r) fd m' /\ (m' + served_now o = m)%nat)).
  { intros t T (so' & F' & O' & Rd') Q S0. split; [exists so'; auto|]. exists m. split; [|rewrite S0; lia]. rewrite Q. unfold due in *. rewrite T.
    destruct (c_polled _ _ C' fd) as [Rg|Pk]; [congruence| |].
    - apply member_in in Rg.
      assert (K : forall n, (exists a b, r = a ++ fd :: b /\ (length a + n <= m)%nat) ->
         exists a b, filter (fun n => member n (reg (kn s'))) (r ++ t) = a ++ fd :: b /\ (length a + n <= m)%nat).
      { intros n (a & b & -> & L). rewrite <- app_assoc. cbn [app]. rewrite filter_split by exact Rg. eexists _, _. split; [reflexivity|].
        pose proof (filter_shorter (fun n => member n (reg (kn s'))) a). lia. }
      destruct (th s) as [|g e| |]; auto. destruct (g =? fd); auto.
    - rewrite T in Pk. rewrite Pk in *. rewrite Z.eqb_refl in *. exact D. }
  destruct o as [shm bits n|j size ras mp|j a size|j|j p|j|l|b]; cbn [possible] in P.
  - right. right. right. destruct (core_create c false shm bits n s C P) as [Y _]. rewrite E in Y. apply pair_equal_spec in Y as [Y _]. subst s'.
    apply (Same []); auto; [|rewrite app_nil_r; reflexivity]. exists so. cbn [kn socks find]. destruct (Z.eqb_spec n fd) as [->|]; [congruence|auto].
  - right. right. right. injection E as <- <-. apply (Same []); auto; [exists so; auto|rewrite app_nil_r; reflexivity].
  - right. right. right. injection E as <- <-. apply (Same []); auto; [exists so; auto|rewrite app_nil_r; reflexivity].
  - right. right. right. injection E as <- <-. apply (Same []); auto; [exists so; auto|rewrite app_nil_r; reflexivity].
  - right. right. right. injection E as <- <-. eapply Same; auto; [|unfold ready_after, woken; reflexivity].
    cbn [kn]. rewrite find_at_end, F. cbn [option_map]. destruct (Nat.eqb (owner so) j); [|eauto]. eexists. split; [reflexivity|].
    unfold readable in *. destruct (hup so) eqn:Hu; [rewrite Hu; auto|]. cbn [owner inq hup]. split; [exact O|]. destruct (inq so); reflexivity.
  - right. right. right. injection E as <- <-. eapply Same; auto; [|unfold ready_after, woken; reflexivity].
    cbn [kn]. rewrite find_at_end, F. cbn [option_map]. destruct (Nat.eqb (owner so) j); [|eauto]. eexists. split; [reflexivity|].
    cbn [owner]. split; [exact O|]. unfold readable. cbn [inq hup]. destruct (inq so); reflexivity.
  - right. right. right. destruct P as [T _]. destruct (A l eq_refl) as (n & ->). unfold due in D. rewrite T in D. destruct D as (a & b & -> & L).
    destruct (c_polled _ _ C fd) as [Rg|Pk]; [congruence| |congruence].
    destruct (next_before (kn s) fd so b Rg F Rd a) as (g & h & r' & Nx & W).
    cbn [step] in E. unfold do_poll in E. rewrite T, answers_poll in E. unfold answers in E. rewrite Nx in E. cbn in E.
    assert (S' : s' = St (if h then Kern (socks (kn s)) (unlist g (reg (kn s))) else kn s) (ranges s) (Picked g h) (mem s)) by (destruct h; injection E as <- _; reflexivity).
    clear E. assert (Fs : socks (kn s') = socks (kn s)) by (subst s'; destruct h; reflexivity).
    split; [exists so; rewrite Fs; auto|]. exists m. split; [|cbn; lia]. unfold due, ready_after. rewrite Nx. cbn [snd].
    assert (Th : th s' = Picked g h) by (subst s'; reflexivity). rewrite Th. destruct (Z.eqb_spec g fd) as [->|Ne]; [lia|].
    destruct W as [W|(a2 & b2 & -> & L2)]; [congruence|].
    destruct (c_polled _ _ C' fd) as [Rg'|Pk]; [congruence| |congruence]. apply member_in in Rg'.
    rewrite filter_split by exact Rg'. eexists _, _. split; [reflexivity|]. pose proof (filter_shorter (fun n => member n (reg (kn s'))) a2). lia.
  - destruct P as (g & eof & T & _). cbn [step] in E. destruct (serve_cases c false b s g eof C T) as (sg & Fg & Rn & S). rewrite E in S. cbn [fst snd] in S.
    destruct (Z.eq_dec g fd) as [->|Ne].
    + rewrite F in Fg. injection Fg as <-. rewrite O in *. inversion S; subst x s'.
      * right. left. intros (n & Kn). cbn [ranges forget] in Kn.
        destruct (Z.eq_dec n fd) as [->|Nn]; [rewrite find_del_same in Kn by exact (c_rnd _ _ C); discriminate|].
        rewrite find_del_other in Kn by exact Nn. rewrite (c_ranges _ _ C) in Kn. destruct (find n (socks (kn s))) as [sn|] eqn:Fn; [|discriminate].
        cbn in Kn. injection Kn as Kn. apply Nn. eapply (c_one _ _ C); eauto. congruence.
      * right. right. left. exists i. auto.
      * left. eexists. split; [left; reflexivity|]. cbn. auto.
      * left. eexists. split; [left; reflexivity|]. cbn. auto.
      * left. eexists. split; [left; reflexivity|]. cbn. auto.
    + destruct (th s') as [|g' e'| |j] eqn:Th'; [right; right; right| | |right; right; left; exists j; split; [reflexivity|right; unfold due in D; rewrite T in D;
        destruct (Z.eqb_spec g fd); [congruence|destruct D as (? & ? & _ & ?); lia]]]; try (exfalso; inversion S; subst; discriminate).
      assert (Fs : find fd (socks (kn s')) = Some so).
      { inversion S; subst; cbn [kn forget k_close taken socks]; rewrite ?find_del_other, ?find_alter by congruence; auto;
          destruct (Z.eqb_spec fd g); congruence. }
      split; [exists so; auto|]. unfold due in D. rewrite T in D. destruct (Z.eqb_spec g fd) as [|_]; [congruence|]. destruct D as (a & b2 & -> & L).
      destruct (c_polled _ _ C' fd) as [Rg'|Pk]; [congruence| |congruence]. apply member_in in Rg'.
      exists (m - 1)%nat. split; [|cbn; lia]. unfold due. rewrite Th'. unfold ready_after. rewrite filter_split by exact Rg'.
      eexists _, _. split; [reflexivity|]. pose proof (filter_shorter (fun n => member n (reg (kn s'))) a). lia.
Qed.

Lemma due_pos s r fd m : due s r fd m -> (1 <= m)%nat.
Proof. unfold due. destruct (th s) as [|g e| |]; try (intros (? & ? & _ & ?); lia). destruct (g =? fd); [auto|intros (? & ? & _ & ?); lia]. Qed.
Lemma rounds_snoc tr o x : rounds (tr ++ [(o, x)]) = (rounds tr + served_now o)%nat.
Proof. unfold rounds. rewrite filter_app, app_length. cbn [filter fst]. destruct o; reflexivity. Qed.
Lemma unknown_step c leak o s s' x i : core false s -> possible leak o s -> step c false o s = (s', x) ->
  (i < length (g_box (mem s)))%nat -> (i < length (g_box (mem s')))%nat /\ (~ known i s -> ~ known i s').
Proof.
  intros C P E L. assert (Keep : forall l l' : list (Z * nat), (forall n j, find n l' = Some j -> j = i -> find n l = Some j) -> ~ (exists n, find n l = Some i) -> ~ (exists n, find n l' = Some i)).
  { intros l l' H N (n & K). apply N. exists n. apply (H n i); auto. }
  destruct o as [shm bits n|j size ras mp|j a size|j|j p|j|l|b]; cbn [possible] in P.
  - destruct (core_create c false shm bits n s C P) as [Y _]. rewrite E in Y. apply pair_equal_spec in Y as [Y _]. subst s'. cbn [mem].
    rewrite step_len. cbv beta iota. split; [lia|]. apply Keep. cbn [ranges find]. intros k j. destruct (n =? k); [intros Z0 ->; injection Z0 as Z0; lia|auto].
  - injection E as <- <-. split; [|auto]. change (i < length (g_box (fst (MemSvcModel.step c (mem s) (EvHostAlloc j size ras mp)))))%nat. rewrite step_len. cbv beta iota. lia.
  - injection E as <- <-. split; [|auto]. change (i < length (g_box (fst (MemSvcModel.step c (mem s) (EvHostFree j a size)))))%nat. rewrite step_len. cbv beta iota. lia.
  - injection E as <- <-. split; [|auto]. change (i < length (g_box (fst (MemSvcModel.step c (mem s) (EvDestroy j)))))%nat. rewrite step_len. cbv beta iota. lia.
  - injection E as <- <-. auto.
  - injection E as <- <-. auto.
  - destruct P as [T Ok]. cbn [step] in E. injection E as <- <-. destruct (poll_step false l s C T Ok) as [->|[(-> & _)|(fd & so0 & F0 & I0 & B0 & ->)]]; auto.
  - destruct P as (g & eof & T & _). cbn [step] in E. destruct (serve_cases c false b s g eof C T) as (sg & Fg & Rn & S). rewrite E in S. cbn [fst snd] in S.
    assert (D : forall k m, ~ known i s -> ~ known i (forget g k m s)).
    { intros k m. apply Keep. cbn [ranges forget]. intros n j. destruct (Z.eq_dec n g) as [->|Ne]; [rewrite find_del_same by exact (c_rnd _ _ C); discriminate|].
      rewrite find_del_other by exact Ne. auto. }
    inversion S; subst; cbn [mem forget]; split; auto; match goal with X : MemSvcModel.step _ _ _ = _ |- _ => apply req_len in X; lia end.
Qed.

Lemma turns c leak tr s r fd i m : fair_runs c leak tr s r -> eager s fd i -> due s r fd m ->
  forall tr2 s2 r2, fair_runs c leak (tr ++ tr2) s2 r2 ->
  (i < length (g_box (mem s2)))%nat /\
  (attended i tr2 \/ ~ known i s2 \/ (exists j, th s2 = Fault j /\ ((j = i /\ rounds tr2 <= m) \/ rounds tr2 + 1 <= m)%nat) \/
   (eager s2 fd i /\ exists m', due s2 r2 fd m' /\ (m' + rounds tr2 = m)%nat)).
Proof.
  intros R Eg D. induction tr2 as [|[o x] tr2 IH] using rev_ind; intros s2 r2 R2.
  - rewrite app_nil_r in R2. destruct (fair_fun _ _ _ _ _ R _ _ R2) as [-> ->]. pose proof (core_runs _ _ _ _ _ (fair_runs_are_runs _ _ _ _ _ R)) as C.
    destruct Eg as (so & F & O & Rd). split; [rewrite <- O; exact (c_owner _ _ C _ _ F)|]. right. right. right. split; [exists so; auto|]. exists m. split; [exact D|cbn; lia].
  - rewrite app_assoc in R2. inversion R2 as [E0|tr0 s0 r0 o0 s1 x0 R0 P0 A0 E0 E1 E2 E3]; [destruct (tr ++ tr2); discriminate|].
    apply app_inj_tail in E1 as [-> E1]. injection E1 as -> ->. subst s1. destruct (IH _ _ R0) as (L & H).
    pose proof (core_runs _ _ _ _ _ (fair_runs_are_runs _ _ _ _ _ R0)) as C. pose proof (rinv_runs _ _ _ _ _ R0) as V.
    destruct (unknown_step c leak o s0 s2 x i C P0 E0 L) as [L2 U]. split; [exact L2|].
    destruct H as [H|[H|[(j & Tj & H)|(Eg0 & m0 & D0 & H)]]].
    + left. destruct H as (o' & y & z & I1 & I2 & I3). exists o', y, z. split; [apply in_or_app; left; exact I1|auto].
    + right. left. auto.
    + right. right. left. exists j.
      assert (Q : th s2 = th s0 /\ served_now o = 0%nat).
      { destruct o as [shm bits n|j0 size ras mp|j0 a size|j0|j0 p|j0|l|b]; cbn [possible] in P0; try (injection E0 as <- <-; auto; fail).
        - destruct (core_create c false shm bits n s0 C P0) as [Y _]. rewrite E0 in Y. apply pair_equal_spec in Y as [Y _]. subst s2. auto.
        - destruct P0; congruence.
        - destruct P0 as (? & ? & ? & _); congruence. }
      destruct Q as [Q1 Q2]. rewrite Q1, rounds_snoc, Q2, Nat.add_0_r. auto.
    + destruct (turn_step c leak o s0 s2 x r0 fd i m0 C V P0 A0 E0 Eg0 D0) as [(z & I1 & I2)|[K|[(j & Tj & K)|(Eg2 & m2 & D2 & K)]]].
      * left. exists o, x, z. split; [apply in_or_app; right; left; reflexivity|auto].
      * right. left. exact K.
      * right. right. left. exists j. split; [exact Tj|]. rewrite rounds_snoc. apply due_pos in D0.
        assert (served_now o <= 1)%nat by (destruct o; cbn; lia). destruct K as [->|K]; [left; split; [reflexivity|lia]|right; lia].
      * right. right. right. split; [exact Eg2|]. exists m2. split; [exact D2|]. rewrite rounds_snoc. lia.
Qed.

Lemma ready_short s r : core false s -> rinv s r -> (length r <= length (ranges s))%nat.
Proof.
  intros C [N G _]. rewrite <- (map_length fst (ranges s)). apply NoDup_incl_length; [exact N|]. intros x X. apply G in X. apply (c_reg _ _ C) in X.
  assert (Y : find x (ranges s) <> None) by (rewrite (c_ranges _ _ C); destruct (find x (socks (kn s))); [discriminate|congruence]).
  destruct (find x (ranges s)) as [j|] eqn:F; [|congruence]. apply in_find in F. apply in_map_iff. exists (x, j). auto.
Qed.

(** C89. Whatever the sandboxes send: once a message of a sandbox is waiting, the
    service deals with that sandbox within as many rounds as there are sandboxes it
    knows then, and one.  The exception is the use of a Library that was destroyed
    before its sandbox was forgotten (C44). *)
Theorem memory_service_is_fair c leak tr s r i tr2 s2 r2 :
  fair_runs c leak tr s r -> known i s -> waits i tr -> fair_runs c leak (tr ++ tr2) s2 r2 ->
  (length (ranges s) < rounds tr2)%nat ->
  attended i tr2 \/ ~ known i s2 \/ th s2 = Fault i.
Proof.
  intros R (fd & Kn) Wt R2 L. pose proof (fair_runs_are_runs _ _ _ _ _ R) as R0. pose proof (core_runs _ _ _ _ _ R0) as C. pose proof (rinv_runs _ _ _ _ _ R) as V.
  pose proof Kn as Kn'. rewrite (c_ranges _ _ C) in Kn'. destruct (find fd (socks (kn s))) as [so|] eqn:F; [|discriminate]. cbn in Kn'. injection Kn' as O.
  assert (Rd : readable so = true).
  { destruct (q_all _ _ (queues_runs _ _ _ _ _ R0) i) as (rest & Q1 & Q2). destruct (Q2 fd so F O) as (d & -> & Hd). unfold waits in Wt. rewrite Q1, !app_length, map_length in Wt.
    unfold readable. destruct (inq so); [|reflexivity]. destruct (hup so); [reflexivity|]. rewrite (Hd eq_refl) in Wt. cbn in Wt. lia. }
  pose proof (ready_short s r C V) as Sh.
  assert (D : due s r fd (length (ranges s) + 1)).
  { assert (In_ : (forall e, th s <> Picked fd e) -> exists a b, r = a ++ fd :: b /\ (length a + 1 <= length (ranges s))%nat).
    { intros NP. destruct (c_polled _ _ C fd) as [Rg|Pk]; [congruence| |destruct (NP _ Pk)]. pose proof (r_all _ _ V fd so Rg F Rd) as I_.
      apply in_split in I_ as (a & b & ->). exists a, b. split; [reflexivity|]. rewrite app_length in Sh. cbn in Sh. lia. }
    unfold due. destruct (th s) as [|g e| |] eqn:T.
    - destruct In_ as (a & b & H & K); [discriminate|]. exists a, b. split; [exact H|lia].
    - destruct (Z.eqb_spec g fd) as [->|Ne]; [lia|]. destruct In_ as (a & b & H & K); [congruence|]. exists a, b. split; [exact H|lia].
    - destruct In_ as (a & b & H & K); [discriminate|]. exists a, b. split; [exact H|lia].
    - destruct In_ as (a & b & H & K); [discriminate|]. exists a, b. split; [exact H|lia]. }
  destruct (turns c leak tr s r fd i _ R (ex_intro _ so (conj F (conj O Rd))) D tr2 s2 r2 R2) as (_ & [H|[H|[(j & Tj & [[-> H]|H])|(_ & m' & D' & H)]]]); auto.
  - lia.
  - apply due_pos in D'. lia.
Qed.

Lemma carried_for_app i a b : carried_out_for i (a ++ b) = carried_out_for i a ++ carried_out_for i b.
Proof. unfold carried_out_for, carried_out. rewrite flat_map_app, filter_app, map_app. reflexivity. Qed.
Lemma sent_app i a b : sent i (a ++ b) = sent i a ++ sent i b.
Proof. unfold sent. apply flat_map_app. Qed.
Lemma rounds_app a b : rounds (a ++ b) = (rounds a + rounds b)%nat.
Proof. unfold rounds. rewrite filter_app, app_length. reflexivity. Qed.
Lemma fair_prefix c leak a : forall b s r, fair_runs c leak (a ++ b) s r -> exists s1 r1, fair_runs c leak a s1 r1.
Proof.
  induction b as [|[o x] b IH] using rev_ind; intros s r R; [rewrite app_nil_r in R; eauto|].
  rewrite app_assoc in R. inversion R as [E0|tr0 s0 r0 o0 s1 x0 R0 P0 A0 E0 E1 E2 E3]; [destruct (a ++ b); discriminate|].
  apply app_inj_tail in E1 as [-> _]. eauto.
Qed.
(** What stays true of a sandbox that was forgotten, and of the thread once it has
    gone wrong. *)
Lemma lasting c leak tr s r i : fair_runs c leak tr s r -> (i < length (g_box (mem s)))%nat ->
  forall tr2 s2 r2, fair_runs c leak (tr ++ tr2) s2 r2 ->
  (i < length (g_box (mem s2)))%nat /\ (~ known i s -> ~ known i s2) /\ (th s = Fault i -> th s2 = Fault i) /\
  (attended i tr2 -> carried_out_for i tr2 <> [] \/ ~ known i s2).
Proof.
  intros R L. induction tr2 as [|[o x] tr2 IH] using rev_ind; intros s2 r2 R2.
  - rewrite app_nil_r in R2. destruct (fair_fun _ _ _ _ _ R _ _ R2) as [-> ->]. split; [exact L|]. split; [auto|]. split; [auto|]. intros (o & y & z & [] & _).
  - rewrite app_assoc in R2. inversion R2 as [E0|tr0 s0 r0 o0 s1 x0 R0 P0 A0 E0 E1 E2 E3]; [destruct (tr ++ tr2); discriminate|].
    apply app_inj_tail in E1 as [-> E1]. injection E1 as -> ->. subst s1. destruct (IH _ _ R0) as (L0 & H1 & H2 & H3).
    pose proof (core_runs _ _ _ _ _ (fair_runs_are_runs _ _ _ _ _ R0)) as C. destruct (unknown_step c leak o s0 s2 x i C P0 E0 L0) as [L2 U].
    split; [exact L2|]. split; [auto|]. split.
    + intros T. apply H2 in T. destruct o as [shm bits n|j0 size ras mp|j0 a size|j0|j0 p|j0|l|b]; cbn [possible] in P0; try (injection E0 as <- <-; exact T).
      * destruct (core_create c false shm bits n s0 C P0) as [Y _]. rewrite E0 in Y. apply pair_equal_spec in Y as [Y _]. subst s2. exact T.
      * destruct P0; congruence.
      * destruct P0 as (? & ? & ? & _); congruence.
    + intros (o' & y & z & I1 & I2 & I3). rewrite carried_for_app. apply in_app_or in I1 as [I1|[I1|[]]].
      * destruct H3 as [H3|H3]; [exists o', y, z; auto| |auto]. left. intros X. apply app_eq_nil in X as [X _]. auto.
      * injection I1 as <- <-. pose proof (quiet _ _ _ _ _ _ _ C P0 E0) as QX. destruct o; try (subst; destruct I2; fail).
        destruct P0 as (fd & eof & T & _). cbn [step] in E0. destruct (serve_cases c false sent s0 fd eof C T) as (so & F & Rn & S). rewrite E0 in S. cbn [fst snd] in S.
        assert (Some_ : forall a b, b <> [] -> a ++ b <> [] :> list request) by (intros a b Hb X; apply app_eq_nil in X as [_ X]; auto).
        inversion S; subst; try (destruct I2; fail).
        -- destruct I2 as [<-|[]]. cbn in I3. assert (owner so = i) by tauto. subst i. left. apply Some_. unfold carried_out_for, carried_out. cbn. rewrite Nat.eqb_refl. discriminate.
        -- assert (owner so = i) by (destruct I2 as [<-|[<-|[]]]; exact I3). subst i. left. apply Some_. unfold carried_out_for, carried_out. cbn. rewrite Nat.eqb_refl. discriminate.
        -- destruct I2 as [<-|[]]. cbn in I3. subst i. right. intros (n & Kn). cbn [ranges forget] in Kn.
           destruct (Z.eq_dec n fd) as [->|Nn]; [rewrite find_del_same in Kn by exact (c_rnd _ _ C); discriminate|].
           rewrite find_del_other in Kn by exact Nn. rewrite (c_ranges _ _ C) in Kn. destruct (find n (socks (kn s0))) as [sn|] eqn:Fn; [|discriminate].
           cbn in Kn. injection Kn as Kn. apply Nn. eapply (c_one _ _ C); eauto.
Qed.
Lemma rounds_split m : forall tr, (m <= rounds tr)%nat -> exists a b, tr = a ++ b /\ rounds a = m.
Proof.
  induction tr as [|[o x] tr IH] using rev_ind; intros H; [exists [], []; split; [reflexivity|cbn in *; lia]|].
  destruct (le_lt_dec m (rounds tr)) as [L|L].
  - destruct (IH L) as (a & b & -> & E). exists a, (b ++ [(o, x)]). rewrite app_assoc. auto.
  - exists (tr ++ [(o, x)]), []. rewrite app_nil_r. split; [reflexivity|]. rewrite rounds_snoc in *. destruct o; cbn in *; lia.
Qed.

(** C89. If the service never knows more than [M] sandboxes, then [n] messages that
    are waiting are carried out within n * (M + 1) rounds. *)
Theorem memory_service_keeps_pace c leak i M : forall n tr s r tr2 s2 r2,
  fair_runs c leak tr s r -> known i s -> (length (carried_out_for i tr) + n <= length (sent i tr))%nat ->
  fair_runs c leak (tr ++ tr2) s2 r2 ->
  (forall a b s' r', tr2 = a ++ b -> fair_runs c leak (tr ++ a) s' r' -> (length (ranges s') <= M)%nat) ->
  (n * (M + 1) <= rounds tr2)%nat ->
  (n <= length (carried_out_for i tr2))%nat \/ ~ known i s2 \/ th s2 = Fault i.
Proof.
  induction n as [n IH] using (well_founded_induction lt_wf). intros tr s r tr2 s2 r2 R Kn Q R2 Few En.
  destruct n as [|n]; [left; lia|]. destruct (rounds_split (M + 1) tr2) as (a & b & -> & Ra); [lia|].
  rewrite rounds_app in En. rewrite app_assoc in R2. destruct (fair_prefix _ _ _ _ _ _ R2) as (s1 & r1 & R1).
  assert (L : (i < length (g_box (mem s)))%nat).
  { destruct Kn as (fd & F). pose proof (core_runs _ _ _ _ _ (fair_runs_are_runs _ _ _ _ _ R)) as C. rewrite (c_ranges _ _ C) in F.
    destruct (find fd (socks (kn s))) as [so|] eqn:Fs; [|discriminate]. cbn in F. injection F as <-. exact (c_owner _ _ C _ _ Fs). }
  destruct (lasting c leak tr s r i R L _ _ _ R1) as (L1 & _ & _ & At). destruct (lasting c leak _ s1 r1 i R1 L1 _ _ _ R2) as (_ & Un & Fl & _).
  assert (N0 : (length (ranges s) <= M)%nat) by (apply (Few [] (a ++ b) s r); [reflexivity|rewrite app_nil_r; exact R]).
  assert (One : carried_out_for i a <> [] \/ ~ known i s1 \/ th s1 = Fault i).
  { destruct (memory_service_is_fair c leak tr s r i a s1 r1 R Kn) as [H|[H|H]]; auto; [unfold waits; lia|lia|]. apply At in H. tauto. }
  assert (Dec : known i s1 \/ ~ known i s1).
  { unfold known. destruct (existsb (fun x => Nat.eqb (snd x) i) (filter (fun x => match find (fst x) (ranges s1) with Some j => Nat.eqb j i | None => false end) (ranges s1))) eqn:X.
    - apply existsb_exists in X as ((f & j) & X1 & X2). apply filter_In in X1 as [_ X1]. cbn in X1. left. exists f. destruct (find f (ranges s1)); [|discriminate]. apply Nat.eqb_eq in X1. congruence.
    - right. intros (f & Hf). assert (existsb (fun x => Nat.eqb (snd x) i) (filter (fun x => match find (fst x) (ranges s1) with Some j => Nat.eqb j i | None => false end) (ranges s1)) = true); [|congruence].
      apply existsb_exists. exists (f, i). split; [|apply Nat.eqb_refl]. apply filter_In. split; [apply in_find; exact Hf|]. cbn [fst]. rewrite Hf. apply Nat.eqb_refl. }
  destruct One as [One|[One|One]]; [|right; left; auto|right; right; auto]. destruct Dec as [K1|K1]; [|right; left; auto].
  rewrite carried_for_app, app_length. assert (1 <= length (carried_out_for i a))%nat by (destruct (carried_out_for i a); [congruence|cbn; lia]).
  destruct (le_lt_dec (S n) (length (carried_out_for i a))) as [|Lt]; [left; lia|].
  destruct (IH (S n - length (carried_out_for i a))%nat ltac:(lia) (tr ++ a) s1 r1 b s2 r2 R1 K1) as [G|[G|G]]; auto.
  - rewrite carried_for_app, sent_app, !app_length. lia.
  - intros a' b' s' r' -> R'. apply (Few (a ++ a') b' s' r'); [rewrite app_assoc; reflexivity|]. rewrite app_assoc. exact R'.
  - nia.
  - left. lia.
Qed.

(** C89, limit: this needs the kernel to take turns.  Were it to report any ready
    descriptor it likes, as PollModel lets it, one sandbox could keep the service to
    itself for as long as it sends, while the request of another waits. *)
Definition nop : request := Request 7 0 0 0 0.
Definition hog : list op := [Send 1 (Req nop); Poll [AEvent 9 false]; Serve true].
Lemma starve c leak (shm1 : Z) (bits1 : nat) (shm2 : Z) (bits2 : nat) n : exists tr s,
  runs c false leak tr s /\ known 0 s /\ waits 0 tr /\ rounds tr = n /\ ~ attended 0 tr /\ length (carried_out_for 1 tr) = n.
Proof.
  set (start := [Create shm1 bits1 8; Create shm2 bits2 9; Send 0 (Req nop)]).
  set (b1 := new_box c shm1 bits1). set (b2 := new_box c shm2 bits2).
  set (s0 := St (Kern [(9, Sock 1 [] false); (8, Sock 0 [Req nop] false)] [9; 8]) [(9, 1%nat); (8, 0%nat)] Idle (GState (g_pm init_state) [b1; b2])).
  assert (G : exists tr, runs c false leak tr s0 /\ sent 0 tr = [Req nop] /\ carried_out_for 0 tr = [] /\ rounds tr = n /\ ~ attended 0 tr /\ length (carried_out_for 1 tr) = n).
  { induction n as [|n (tr & R & H1 & H2 & H3 & H4 & H5)].
    - exists (map (fun o => (o, [])) start). split; [|split; [reflexivity|split; [reflexivity|split; [reflexivity|split; [|reflexivity]]]]].
      + pose proof (go_runs c false leak start [] init (runs_0 c false leak)) as Go. apply Go.
        cbn -[initial_free]. repeat split; auto; lia.
      + intros (o & y & z & I1 & I2 & _). cbn in I1. destruct I1 as [E|[E|[E|[]]]]; injection E as <- <-; destruct I2.
    - exists (tr ++ [(Send 1 (Req nop), []); (Poll [AEvent 9 false], []); (Serve true, [Reply 1 1 nop (Response 0 0)])]). split; [|split; [|split; [|split; [|split]]]].
      + change (tr ++ [(Send 1 (Req nop), []); (Poll [AEvent 9 false], []); (Serve true, [Reply 1 1 nop (Response 0 0)])]) with
          (tr ++ [(Send 1 (Req nop), [])] ++ [(Poll [AEvent 9 false], [])] ++ [(Serve true, [Reply 1 1 nop (Response 0 0)])]). rewrite !app_assoc.
        econstructor; [econstructor; [econstructor; [exact R| |reflexivity]| |reflexivity]| |]; cbn.
        * lia.
        * split; [reflexivity|]. constructor; [|constructor]. cbn. split; [left; reflexivity|]. eexists. split; [reflexivity|]. cbn. split; [left; discriminate|reflexivity].
        * exists 9, false. split; [reflexivity|]. intros _ so E. cbn in E. injection E as <-. reflexivity.
        * reflexivity.
      + rewrite sent_app, H1. reflexivity.
      + rewrite carried_for_app, H2. reflexivity.
      + rewrite rounds_app, H3. cbn. lia.
      + intros (o & y & z & I1 & I2 & I3). apply in_app_or in I1 as [I1|I1]; [apply H4; exists o, y, z; auto|].
        cbn in I1. destruct I1 as [E|[E|[E|[]]]]; injection E as <- <-; cbn in I2; [tauto|tauto|]. destruct I2 as [<-|[]]. cbn in I3. lia.
      + rewrite carried_for_app, app_length, H5. cbn. lia. }
  destruct G as (tr & R & H1 & H2 & H3 & H4 & H5). exists tr, s0. split; [exact R|]. split; [exists 8; reflexivity|].
  split; [unfold waits; rewrite H1, H2; cbn; lia|]. auto.
Qed.

Theorem unfair_kernel_starves_refuted c leak n : exists tr s,
  runs c false leak tr s /\ known 0 s /\ waits 0 tr /\ rounds tr = n /\ ~ attended 0 tr /\ length (carried_out_for 1 tr) = n.
Proof. exact (starve c leak (2 ^ 40) 18 (2 ^ 41) 18 n). Qed.

(** Example: the hog sends three requests before the other sandbox sends one, and sends
    again after each answer; the other is answered in the second round. *)
Definition fair_ops shm1 bits1 shm2 bits2 : list op :=
  [Create shm1 bits1 8; Create shm2 bits2 9; Send 1 (Req nop); Send 1 (Req nop); Send 1 (Req nop); Send 0 (Req nop);
   Poll [AEvent 9 false]; Serve true; Send 1 (Req nop); Poll [AIntr; AEvent 8 false]; Serve true; Poll [AEvent 9 false]; Serve true].
Fixpoint fair_go c (os : list op) tr (s : st) (r : list Z) : history * (st * list Z) :=
  match os with [] => (tr, (s, r)) | o :: os => let (s', x) := step c false o s in fair_go c os (tr ++ [(o, x)]) s' (ready_after o s s' r) end.
Fixpoint fair_oks c leak (os : list op) (s : st) (r : list Z) : Prop :=
  match os with
  | [] => True
  | o :: os => possible leak o s /\ (forall l, o = Poll l -> exists n, l = answers n (kn s) r) /\
      fair_oks c leak os (fst (step c false o s)) (ready_after o s (fst (step c false o s)) r)
  end.
Lemma fair_go_runs c leak os : forall tr s r, fair_runs c leak tr s r -> fair_oks c leak os s r ->
  fair_runs c leak (fst (fair_go c os tr s r)) (fst (snd (fair_go c os tr s r))) (snd (snd (fair_go c os tr s r))).
Proof.
  induction os as [|o os IH]; intros tr s r R O; cbn [fair_go]; auto. destruct O as (O1 & O2 & O3). destruct (step c false o s) as [s' x] eqn:E.
  apply IH; [econstructor; eauto|auto].
Qed.
Example fair_ops_run c leak shm1 bits1 shm2 bits2 : exists tr s r, fair_runs c leak tr s r /\ map fst tr = fair_ops shm1 bits1 shm2 bits2 /\ known 0 s /\ rounds tr = 3%nat /\
  map (fun y => fst (fst y)) (carried_out tr) = [1; 0; 1]%nat /\ length (ranges s) = 2%nat.
Proof.
  eexists _, _, _. split; [refine (fair_go_runs c leak (fair_ops shm1 bits1 shm2 bits2) [] init [] (fair_0 c leak) _)|].
  - cbn -[initial_free]. repeat (split; [solve [reflexivity|lia|split; [reflexivity|repeat constructor; eexists; (split; [reflexivity|]); split; auto; left; discriminate]|
      eexists _, _; split; [reflexivity|]; intros _ so E; injection E as <-; reflexivity]|];
      split; [solve [discriminate|intros l E; injection E as <-; exists O; reflexivity|intros l E; injection E as <-; exists 1%nat; reflexivity]|]).
    exact I.
  - split; [lazy; reflexivity|]. split; [exists 8; lazy; reflexivity|]. split; [lazy; reflexivity|]. split; lazy; reflexivity.
Qed.
Print Assumptions memory_service_is_fair.
Print Assumptions memory_service_keeps_pace.
Print Assumptions fair_runs_are_runs.
Print Assumptions unfair_kernel_starves_refuted.
Print Assumptions fair_poll_is_possible.

(** C89 with C88: the memory work of each of those rounds is bounded by the size of the
    sandbox that the round is for: two entries of the pagemap for each of its chunks,
    all of them its own. *)
Theorem round_work_bounded c kq leak tr s b s' x i rq rs : MemSvcSpec.cfg_ok c -> runs c kq leak tr s -> MemSvcSpec.hostile_history c (memory_events tr) ->
  possible leak (Serve b) s -> step c kq (Serve b) s = (s', x) -> In (i, rq, rs) (flat_map served_out x) -> MemSvcSpec.request_words rq ->
  exists box, nth_error (g_box (mem s)) i = Some box /\
    let result := WorkModel.counted_service c (g_pm (mem s)) box rq in
    g_pm (mem s') = fst (fst (fst result)) /\ rs = snd (fst result) /\
    (forall a, In a (snd result) -> b_shm box <= a /\ a + chunk c <= b_shm box + 2 ^ Z.of_nat (b_bits box)) /\
    Z.of_nat (length (snd result)) * chunk c <= 2 * 2 ^ Z.of_nat (b_bits box).
Proof.
  intros Ok R H (fd & eof & T & _) E I_ Wd. pose proof (core_runs _ _ _ _ _ R) as C. destruct (service_is_sequential _ _ _ _ _ R) as [M _].
  destruct (serve_cases c kq b s fd eof C T) as (so & F & Rn & S). cbn [step] in E. rewrite E in S. cbn [fst snd] in S.
  assert (G : forall m, alive (mem s) i = true -> MemSvcModel.step c (mem s) (EvReq i rq) = (m, rs) -> mem s' = m ->
    exists box, nth_error (g_box (mem s)) i = Some box /\
    let result := WorkModel.counted_service c (g_pm (mem s)) box rq in
    g_pm (mem s') = fst (fst (fst result)) /\ rs = snd (fst result) /\
    (forall a, In a (snd result) -> b_shm box <= a /\ a + chunk c <= b_shm box + 2 ^ Z.of_nat (b_bits box)) /\
    Z.of_nat (length (snd result)) * chunk c <= 2 * 2 ^ Z.of_nat (b_bits box)).
  { intros m Al St_ ->. unfold alive in Al. destruct (nth_error (g_box (mem s)) i) as [box|] eqn:Nb; [|discriminate]. exists box. split; [reflexivity|]. cbv zeta.
    cbn [MemSvcModel.step] in St_. unfold on_box in St_. rewrite Nb, Al in St_. destruct (service c (g_pm (mem s)) box rq) as [[pm' b'] r'] eqn:Sv.
    injection St_ as <- <-. rewrite WorkProps.counted_service_is_service, Sv. cbn [fst snd g_pm]. split; [reflexivity|]. split; [reflexivity|].
    destruct (MemSvcModel.run c init_state (memory_events tr)) as [m0 t0] eqn:Rn0. cbn [fst] in M. subst m0.
    exact (WorkProps.memory_request_work_bounded c _ _ _ i box rq Ok H Rn0 Nb Al Wd). }
  inversion S; subst; cbn [flat_map served_out app] in I_; try (destruct I_; fail);
    destruct I_ as [I_|[]]; injection I_ as <- <- <-; eapply G; eauto.
Qed.
(** Example: the round in which a sandbox of 16 chunks is given 4 of them. *)
Definition work_ops : list op := [Create MemSvcProps.ex_base 18 8; Send 0 (Req (MemSvcProps.alloc_rq 4)); Poll [AEvent 8 false]].
Example work_ops_run : exists tr s r, fair_runs MemSvcProps.ex_cfg false tr s r /\ map fst tr = work_ops /\ possible false (Serve true) s /\
  MemSvcSpec.hostile_history MemSvcProps.ex_cfg (memory_events tr) /\
  map (fun y => fst y) (flat_map served_out (snd (step MemSvcProps.ex_cfg false (Serve true) s))) = [(0%nat, MemSvcProps.alloc_rq 4)] /\
  match nth_error (g_box (mem s)) 0 with
  | Some b => length (snd (WorkModel.counted_service MemSvcProps.ex_cfg (g_pm (mem s)) b (MemSvcProps.alloc_rq 4)))
  | None => O
  end = 4%nat.
Proof.
  eexists _, _, _. split; [refine (fair_go_runs MemSvcProps.ex_cfg false work_ops [] init [] (fair_0 _ false) _)|].
  - cbn -[initial_free]. split; [reflexivity|]. split; [discriminate|]. split; [lia|]. split; [discriminate|].
    split; [split; [reflexivity|repeat constructor; eexists; (split; [reflexivity|]); split; auto; left; discriminate]|].
    split; [intros l E; injection E as <-; exists O; reflexivity|exact I].
  - split; [vm_compute; reflexivity|]. split; [eexists _, _; split; [lazy; reflexivity|]; intros _ so E; lazy in E; injection E as <-; reflexivity|].
    split; [|split; vm_compute; reflexivity].
    match goal with |- _ _ (memory_events ?t) => replace (memory_events t) with [EvCreate MemSvcProps.ex_base 18] by (vm_compute; reflexivity) end.
    unfold MemSvcSpec.hostile_history. cbn -[initial_free Z.pow]. split; [|exact I].
    unfold MemSvcSpec.fresh_region, MemSvcProps.ex_base, W. cbn [cbits MemSvcProps.ex_cfg]. repeat split; try lia.
    + exists (0x7f0040000000 / 2 ^ 18). reflexivity.
    + intros r [].
Qed.
Print Assumptions round_work_bounded.

Definition is_request (ev : event) : bool := match ev with EvReq _ _ => true | _ => false end.

Lemma bits_step c B st ev : (forall shm bits, ev = EvCreate shm bits -> (bits <= B)%nat) ->
  Forall (fun b => (b_bits b <= B)%nat) (g_box st) -> Forall (fun b => (b_bits b <= B)%nat) (g_box (fst (MemSvcModel.step c st ev))).
Proof.
  intros Hc F.
  assert (U : forall i b b', nth_error (g_box st) i = Some b -> b_bits b' = b_bits b -> Forall (fun b => (b_bits b <= B)%nat) (upd i b' (g_box st))).
  { intros i b b' N E. assert (Q : (b_bits b' <= B)%nat) by (rewrite E; exact (proj1 (Forall_forall _ _) F _ (nth_error_In _ _ N))).
    clear N E. revert i F. induction (g_box st) as [|x l IH]; intros [|i] F; cbn; auto; inversion F; subst; constructor; auto. }
  assert (O : forall i f, (forall pm b, b_bits (snd (fst (f pm b))) = b_bits b) -> Forall (fun b => (b_bits b <= B)%nat) (g_box (fst (on_box st i f)))).
  { intros i f Hf. unfold on_box. destruct (nth_error (g_box st) i) as [b|] eqn:N; [|exact F]. destruct (b_live b); [|exact F].
    specialize (Hf (g_pm st) b). destruct (f (g_pm st) b) as [[pm' b'] r]. cbn [fst snd g_box] in *. eapply U; eauto. }
  destruct ev; cbn [MemSvcModel.step].
  all: try (apply O; intros pm b).
  all: try (unfold service, service_alloc, service_dealloc, host_alloc, host_free, backend_dealloc; cbv zeta;
    repeat match goal with |- context [match ?x with _ => _ end] => destruct x end; reflexivity).
  all: try (cbn [fst g_box]; apply Forall_app; split; [exact F|]; constructor; [cbn; eapply Hc; reflexivity|constructor]).
  all: try exact F.
Qed.
Lemma admissible_split P c : forall evs1 evs2 st bk st1 t1, MemSvcModel.run c st evs1 = (st1, t1) -> MemSvcSpec.admissible P c st bk (evs1 ++ evs2) ->
  MemSvcSpec.admissible P c st bk evs1 /\ MemSvcSpec.admissible P c st1 (fold_left MemSvcSpec.note t1 bk) evs2.
Proof.
  induction evs1 as [|e l IH]; intros evs2 st bk st1 t1 R A; cbn in *; [injection R as <- <-; split; [exact I|exact A]|].
  destruct A as [A1 A2]. destruct (MemSvcModel.step c st e) as [s1 r1]. destruct (MemSvcModel.run c s1 l) as [s2 t2] eqn:E. injection R as <- <-.
  destruct (IH evs2 s1 _ _ _ E A2) as [B1 B2]. split; [split; assumption|exact B2].
Qed.
Lemma entries_bounded c B evs2 : MemSvcSpec.cfg_ok c -> forall evs1 st t1, MemSvcModel.run c init_state evs1 = (st, t1) ->
  MemSvcSpec.hostile_history c (evs1 ++ evs2) -> regions_within B evs2 -> Forall (fun b => (b_bits b <= B)%nat) (g_box st) ->
  Z.of_nat (length (entries_touched c st evs2)) * chunk c <= Z.of_nat (length (filter is_request evs2)) * (2 * 2 ^ Z.of_nat B).
Proof.
  intros Ok. induction evs2 as [|ev evs2 IH]; intros evs1 st t1 R H Rg F; [cbn; lia|].
  destruct (MemSvcModel.step c st ev) as [st' rs] eqn:E.
  assert (R' : MemSvcModel.run c init_state (evs1 ++ [ev]) = (st', t1 ++ [(ev, rs)])) by (eapply MemSvcProps.run_snoc; eauto).
  assert (F' : Forall (fun b => (b_bits b <= B)%nat) (g_box st')).
  { pose proof (bits_step c B st ev) as Q. rewrite E in Q. apply Q; [|exact F]. intros shm bits ->. apply (Rg shm bits). left. reflexivity. }
  specialize (IH (evs1 ++ [ev]) st' _ R'). rewrite <- app_assoc in IH. specialize (IH H (fun a b I_ => Rg a b (or_intror I_)) F').
  cbn [entries_touched]. rewrite E. cbn [fst]. rewrite app_length, Nat2Z.inj_add, Z.mul_add_distr_r.
  destruct (admissible_split _ c evs1 (ev :: evs2) _ _ _ _ R H) as [H1 H2].
  destruct ev; cbn [filter is_request length]; try lia.
  rewrite Nat2Z.inj_succ, Z.mul_succ_l. pose proof (Z.pow_pos_nonneg 2 (Z.of_nat B)) as P2.
  destruct (nth_error (g_box st) i) as [b|] eqn:N; [|cbn [length]; lia]. destruct (b_live b) eqn:Lv; [|cbn [length]; lia].
  destruct H2 as [Wd _]. destruct (WorkProps.memory_request_work_bounded c _ _ _ i b _ Ok H1 R N Lv Wd) as [_ Q].
  assert (2 ^ Z.of_nat (b_bits b) <= 2 ^ Z.of_nat B).
  { apply Z.pow_le_mono_r; [lia|]. pose proof (proj1 (Forall_forall _ _) F _ (nth_error_In _ _ N)) as Q2. cbv beta in Q2. lia. }
  lia.
Qed.
Lemma bits_run c B evs : regions_within B evs -> forall st, Forall (fun b => (b_bits b <= B)%nat) (g_box st) ->
  Forall (fun b => (b_bits b <= B)%nat) (g_box (fst (MemSvcModel.run c st evs))).
Proof.
  induction evs as [|ev evs IH]; intros Rg st F; [exact F|]. cbn [MemSvcModel.run].
  pose proof (bits_step c B st ev (fun a b E => Rg a b (or_introl E)) F) as F'. destruct (MemSvcModel.step c st ev) as [st1 rs]. cbn [fst] in F'.
  specialize (IH (fun a b I_ => Rg a b (or_intror I_)) st1 F'). destruct (MemSvcModel.run c st1 evs). exact IH.
Qed.
Lemma requests_rounds c kq leak tr tr2 : forall s2, runs c kq leak (tr ++ tr2) s2 ->
  (length (filter is_request (memory_events tr2)) <= rounds tr2)%nat.
Proof.
  induction tr2 as [|[o x] tr2 IH] using rev_ind; intros s2 R; [cbn; lia|]. rewrite app_assoc in R.
  inversion R as [E|tr0 s o0 s' x0 R0 P0 S0 E]; [destruct ((tr ++ tr2)); discriminate|]. apply app_inj_tail in E as [-> E]. injection E as -> ->.
  specialize (IH s R0). unfold memory_events, rounds in *. rewrite flat_map_app, !filter_app, !app_length. cbn [flat_map filter]. rewrite app_nil_r.
  set (n1 := length (filter is_request (flat_map memory_events_of tr2))) in *. clearbody n1. destruct o as [| | | | | | |sent]; unfold memory_events_of; cbn [fst snd filter is_request length]; try lia.
  destruct P0 as (fd & eof & T & _). destruct (serve_cases c kq sent s fd eof (core_runs _ _ _ _ _ R0) T) as (so & _ & _ & S). cbn [step] in S0. rewrite S0 in S. cbn [fst snd] in S.
  inversion S; subst; cbn; lia.
Qed.
(** C89 with C88, over any stretch of a history: the entries touched are at most those of
    the largest region, twice, for each round of the service. *)
Theorem rounds_work_bounded c kq leak tr s tr2 s2 B : MemSvcSpec.cfg_ok c -> runs c kq leak tr s -> runs c kq leak (tr ++ tr2) s2 ->
  MemSvcSpec.hostile_history c (memory_events (tr ++ tr2)) -> regions_within B (memory_events (tr ++ tr2)) ->
  Z.of_nat (length (entries_touched c (mem s) (memory_events tr2))) * chunk c <= Z.of_nat (rounds tr2) * (2 * 2 ^ Z.of_nat B).
Proof.
  intros Ok R R2 H Rg. destruct (service_is_sequential _ _ _ _ _ R) as [M _]. unfold memory_events in H, Rg. rewrite flat_map_app in H, Rg.
  fold (memory_events tr) in H, Rg. fold (memory_events tr2) in H, Rg.
  pose proof (bits_run c B (memory_events tr) (fun a b I_ => Rg a b (in_or_app _ _ _ (or_introl I_))) init_state (Forall_nil _)) as F.
  destruct (MemSvcModel.run c init_state (memory_events tr)) as [m t] eqn:E. cbn [fst] in M, F. subst m.
  pose proof (entries_bounded c B (memory_events tr2) Ok _ _ _ E H (fun a b I_ => Rg a b (in_or_app _ _ _ (or_intror I_))) F) as Q.
  pose proof (requests_rounds _ _ _ _ _ _ R2). pose proof (Z.pow_pos_nonneg 2 (Z.of_nat B)). nia.
Qed.
(** Example: with the round after [work_ops], 4 entries in one round. *)
Example work_round_entries : exists tr s s2 x, runs MemSvcProps.ex_cfg false false tr s /\ runs MemSvcProps.ex_cfg false false (tr ++ [(Serve true, x)]) s2 /\
  MemSvcSpec.hostile_history MemSvcProps.ex_cfg (memory_events (tr ++ [(Serve true, x)])) /\ regions_within 18 (memory_events (tr ++ [(Serve true, x)])) /\
  rounds [(Serve true, x)] = 1%nat /\ length (entries_touched MemSvcProps.ex_cfg (mem s) (memory_events [(Serve true, x)])) = 4%nat.
Proof.
  pose (s0 := fst (snd (fair_go MemSvcProps.ex_cfg work_ops [] init []))). pose (t0 := fst (fair_go MemSvcProps.ex_cfg work_ops [] init [])).
  assert (R : runs MemSvcProps.ex_cfg false false t0 s0).
  { eapply fair_runs_are_runs. refine (fair_go_runs MemSvcProps.ex_cfg false work_ops [] init [] (fair_0 _ false) _).
    cbn -[initial_free]. split; [reflexivity|]. split; [discriminate|]. split; [lia|]. split; [discriminate|].
    split; [split; [reflexivity|repeat constructor; eexists; (split; [reflexivity|]); split; auto; left; discriminate]|].
    split; [intros l E; injection E as <-; exists O; reflexivity|exact I]. }
  exists t0, s0, (fst (step MemSvcProps.ex_cfg false (Serve true) s0)), (snd (step MemSvcProps.ex_cfg false (Serve true) s0)).
  assert (M : memory_events (t0 ++ [(Serve true, snd (step MemSvcProps.ex_cfg false (Serve true) s0))]) = [EvCreate MemSvcProps.ex_base 18; EvReq 0 (MemSvcProps.alloc_rq 4)])
    by (vm_compute; reflexivity).
  split; [exact R|]. split; [|rewrite M].
  - apply (runs_snoc _ _ _ _ _ _ _ _ R); [|destruct (step MemSvcProps.ex_cfg false (Serve true) s0); reflexivity].
    eexists _, _. split; [lazy; reflexivity|]. intros _ so E. lazy in E. injection E as <-. reflexivity.
  - split; [|split; [intros shm bits [E|[E|[]]]; [injection E as <- <-; lia|discriminate]|split; vm_compute; reflexivity]].
    unfold MemSvcSpec.hostile_history. cbn [MemSvcSpec.admissible MemSvcSpec.hostile_ok]. split.
    + unfold MemSvcSpec.fresh_region, MemSvcProps.ex_base, W. cbn [cbits MemSvcProps.ex_cfg]. repeat split; try lia.
      * exists (0x7f0040000000 / 2 ^ 18). reflexivity.
      * intros r [].
    + destruct (MemSvcModel.step _ _ _). cbn [MemSvcSpec.admissible MemSvcSpec.hostile_ok]. split.
      * unfold MemSvcSpec.request_words, is_word, MemSvcProps.alloc_rq, MemSvcProps.ck, W. cbn [rq_0 rq_1 rq_2]. lia.
      * destruct (MemSvcModel.step _ _ _). exact I.
Qed.
Print Assumptions rounds_work_bounded.
