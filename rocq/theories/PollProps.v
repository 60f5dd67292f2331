(** The claimed theorems about the pollers (C43). *)
From Coq Require Import List ZArith Bool Lia.
From Verif Require Import PollModel PollSpec.
Import ListNotations.
Open Scope Z_scope.

Lemma find_alter {A} fd n (f : A -> A) l :
  find n (alter fd f l) = if n =? fd then option_map f (find n l) else find n l.
Proof.
  induction l as [|[m a] l IH]; cbn; [destruct (n =? fd); auto|].
  destruct (Z.eqb_spec m fd) as [E|E]; cbn; destruct (Z.eqb_spec m n) as [E2|E2], (Z.eqb_spec n fd) as [E3|E3]; try congruence; auto.
Qed.
Lemma find_del_other {A} fd n (l : list (Z * A)) : n <> fd -> find n (del fd l) = find n l.
Proof.
  intros N. induction l as [|[m a] l IH]; cbn; auto. destruct (Z.eqb_spec m fd); cbn; [|destruct (m =? n); auto].
  destruct (Z.eqb_spec m n); [lia|auto].
Qed.
Lemma find_none {A} fd (l : list (Z * A)) : find fd l = None <-> ~ In fd (map fst l).
Proof.
  induction l as [|[m a] l IH]; cbn; [tauto|]. destruct (Z.eqb_spec m fd); [split; [discriminate|tauto]|]. tauto.
Qed.
Lemma find_del_same {A} fd (l : list (Z * A)) : NoDup (map fst l) -> find fd (del fd l) = None.
Proof.
  induction l as [|[m a] l IH]; cbn; auto. intros H. inversion H; subst. destruct (Z.eqb_spec m fd) as [->|N]; cbn.
  - apply find_none. auto.
  - destruct (Z.eqb_spec m fd); [congruence|auto].
Qed.
Lemma del_incl {A} fd (l : list (Z * A)) x : In x (del fd l) -> In x l.
Proof. induction l as [|[m a] l IH]; cbn; auto. destruct (m =? fd); cbn; intuition. Qed.
Lemma nodup_del {A} fd (l : list (Z * A)) : NoDup (map fst l) -> NoDup (map fst (del fd l)).
Proof.
  induction l as [|[m a] l IH]; cbn; auto. intros H. inversion H as [|? ? H1 H2]; subst. destruct (m =? fd); cbn; auto. constructor; auto.
  intros X. apply in_map_iff in X. destruct X as ([q b] & <- & X). apply del_incl in X. apply H1. apply in_map_iff. exists (q, b). auto.
Qed.
Lemma keys_alter {A} fd (f : A -> A) l : map fst (alter fd f l) = map fst l.
Proof. induction l as [|[m a] l IH]; cbn; auto. destruct (m =? fd); cbn; congruence. Qed.
Lemma in_unlist fd n l : In n (unlist fd l) <-> In n l /\ n <> fd.
Proof. unfold unlist. rewrite filter_In. destruct (Z.eqb_spec n fd); cbn; intuition congruence. Qed.
Lemma member_in fd l : member fd l = true <-> In fd l.
Proof.
  unfold member. rewrite existsb_exists. split.
  - intros (x & H & E). apply Z.eqb_eq in E. congruence.
  - intros H. exists fd. rewrite Z.eqb_refl. auto.
Qed.

(** Which event, if any, [poll] settles on. *)
Lemma epoll_cases {P} l (k k' : kern P) r : epoll_poll l k = (k', r) ->
  (r = None /\ k' = k) \/ (r = Some PFalse /\ k' = k /\ In AFail l)
  \/ exists fd h, r = Some (PTrue fd h) /\ In (AEvent fd h) l
       /\ k' = (if h then Kern (socks k) (unlist fd (reg k)) else k).
Proof.
  induction l as [|[| | |fd h] l IH]; cbn; intros E.
  - injection E as <- <-. auto.
  - destruct (IH E) as [?|[(? & ? & ?)|(fd & h & ? & ? & ?)]]; auto 10. right. right. exists fd, h. auto.
  - destruct (IH E) as [?|[(? & ? & ?)|(fd & h & ? & ? & ?)]]; auto 10. right. right. exists fd, h. auto.
  - injection E as <- <-. right. left. auto.
  - injection E as <- <-. right. right. exists fd, h. auto.
Qed.
Lemma poll_cases {P} kq l (k k' : kern P) r : poll kq l k = (k', r) ->
  (r = None /\ k' = k) \/ (r = Some PFalse /\ k' = k /\ (In AFail l \/ kq = true))
  \/ exists fd h, r = Some (PTrue fd h) /\ In (AEvent fd h) l
       /\ k' = (if h && negb kq then Kern (socks k) (unlist fd (reg k)) else k).
Proof.
  unfold poll. destruct kq; intros E.
  - destruct l as [|[| | |fd h] l]; cbn in E; injection E as <- <-; auto 10. right. right. exists fd, h.
    rewrite andb_false_r. cbn. auto.
  - apply epoll_cases in E. destruct E as [?|[(? & ? & ?)|(fd & h & ? & ? & ?)]]; auto 10. right. right. exists fd, h.
    rewrite andb_true_r. auto.
Qed.

(** The kernel's state is what the history says. *)
Record agrees {P} (kq : bool) (tr : list (op P * res P)) (k : kern P) : Prop := {
  a_nd : NoDup (map fst (socks k));
  a_reg : forall fd, In fd (reg k) -> find fd (socks k) <> None;
  a_listed : forall fd, In fd (reg k) <-> listed kq fd tr = true;
  a_seen : forall fd, match find fd (socks k) with
                      | Some s => is_open (seen fd tr) = true /\ peer_closed (seen fd tr) = hup s /\ waiting (seen fd tr) = inq s
                      | None => seen fd tr = View false false []
                      end }.

Lemma seen_snoc {P} fd (tr : list (op P * res P)) x : seen fd (tr ++ [x]) = view_step fd (seen fd tr) x.
Proof. unfold seen. rewrite fold_left_app. reflexivity. Qed.
Lemma listed_snoc {P} kq fd (tr : list (op P * res P)) x : listed kq fd (tr ++ [x]) = listed_step kq fd (listed kq fd tr) x.
Proof. unfold listed. rewrite fold_left_app. reflexivity. Qed.

Ltac other := match goal with H : ?a <> ?b |- context [?a =? ?b] => rewrite (proj2 (Z.eqb_neq a b) H) end.

Lemma agrees_run {P} kq (tr : list (op P * res P)) k : runs kq tr k -> agrees kq tr k.
Proof.
  induction 1 as [|tr k o k' r R IH Pos E].
  - constructor; cbn; try constructor; auto; intros; try discriminate; tauto.
  - destruct IH as [ND RG LI SE]. destruct o as [fd who|fd|fd p|fd|fd|fd|l]; cbn [possible] in Pos; cbn [step] in E.
    + injection E as <- <-. constructor; cbn [k_open socks reg map fst find].
      * constructor; auto. apply find_none. auto.
      * intros n H. destruct (fd =? n); [discriminate|auto].
      * intros n. rewrite listed_snoc. cbn. apply LI.
      * intros n. rewrite seen_snoc. cbn [view_step]. destruct (fd =? n); [cbn; auto|apply SE].
    + injection E as <- <-. constructor; cbn [k_close socks reg].
      * apply nodup_del; auto.
      * intros n H. apply in_unlist in H. destruct H. rewrite find_del_other; auto.
      * intros n. rewrite listed_snoc, in_unlist. cbn [listed_step]. rewrite (LI n).
        destruct (Z.eqb_spec fd n); intuition congruence.
      * intros n. rewrite seen_snoc. cbn [view_step]. destruct (Z.eqb_spec fd n) as [->|N].
        -- rewrite find_del_same by auto. reflexivity.
        -- rewrite find_del_other by congruence. apply SE.
    + injection E as <- <-. constructor; cbn [k_data socks reg].
      * rewrite keys_alter. auto.
      * intros n H. rewrite find_alter. apply RG in H. destruct (n =? fd); auto. destruct (find n (socks k)); auto. discriminate.
      * intros n. rewrite listed_snoc. cbn. apply LI.
      * intros n. rewrite seen_snoc, find_alter. cbn [view_step]. specialize (SE n). rewrite (Z.eqb_sym fd n).
        destruct (Z.eqb_spec n fd) as [->|N]; [|apply SE]. destruct (find fd (socks k)) as [s|]; cbn [option_map] in *.
        -- destruct SE as (A & B & C). rewrite A, B. destruct (hup s) eqn:HU; cbn; rewrite ?A, ?B, ?C, ?HU; auto.
        -- rewrite SE. cbn. auto.
    + injection E as <- <-. constructor; cbn [k_hang socks reg].
      * rewrite keys_alter. auto.
      * intros n H. rewrite find_alter. apply RG in H. destruct (n =? fd); auto. destruct (find n (socks k)); auto. discriminate.
      * intros n. rewrite listed_snoc. cbn. apply LI.
      * intros n. rewrite seen_snoc, find_alter. cbn [view_step]. specialize (SE n). rewrite (Z.eqb_sym fd n).
        destruct (Z.eqb_spec n fd) as [->|N]; [|apply SE]. destruct (find fd (socks k)) as [s|]; cbn [option_map] in *.
        -- destruct SE as (A & B & C). rewrite A. cbn. auto.
        -- rewrite SE. cbn. auto.
    + unfold k_take in E. destruct (find fd (socks k)) as [s|] eqn:F; [destruct (inq s) as [|p q] eqn:Q|]; injection E as <- <-.
      * constructor; auto; intros n; rewrite ?listed_snoc, ?seen_snoc; cbn [listed_step view_step]; auto.
        destruct (Z.eqb_spec fd n) as [->|N]; [|apply SE]. specialize (SE n). rewrite F in SE |- *. cbn. rewrite Q in *.
        destruct SE as (A & B & ->). auto.
      * constructor; cbn [socks reg].
        -- rewrite keys_alter. auto.
        -- intros n H. rewrite find_alter. apply RG in H. destruct (n =? fd); auto. destruct (find n (socks k)); auto. discriminate.
        -- intros n. rewrite listed_snoc. cbn. apply LI.
        -- intros n. rewrite seen_snoc, find_alter. cbn [view_step]. specialize (SE n). rewrite (Z.eqb_sym fd n).
           destruct (Z.eqb_spec n fd) as [->|N]; [|apply SE]. rewrite F in SE |- *. cbn. destruct SE as (A & B & ->). auto.
      * constructor; auto; intros n; rewrite ?listed_snoc, ?seen_snoc; cbn [listed_step view_step]; auto.
        destruct (Z.eqb_spec fd n) as [->|N]; [|apply SE]. specialize (SE n). rewrite F in SE |- *. rewrite SE. reflexivity.
    + unfold add in E. destruct (find fd (socks k)) as [s|] eqn:F; [destruct (member fd (reg k)) eqn:M|]; injection E as <- <-.
      * apply member_in in M. constructor; auto; intros n; rewrite ?listed_snoc, ?seen_snoc; cbn [listed_step view_step]; auto; try apply SE.
        destruct kq; [|auto]. destruct (Z.eqb_spec fd n) as [->|N]; [|auto]. tauto.
      * constructor; cbn [socks reg]; auto.
        -- intros n [<-|H]; [congruence|auto].
        -- intros n. rewrite listed_snoc. cbn [listed_step]. destruct (Z.eqb_spec fd n) as [->|N]; cbn; [tauto|]. rewrite <- LI. intuition congruence.
        -- intros n. rewrite seen_snoc. apply SE.
      * constructor; auto; intros n; rewrite ?listed_snoc, ?seen_snoc; cbn [listed_step view_step]; auto; apply SE.
    + destruct (poll kq l k) as [k2 r2] eqn:PE. injection E as <- <-. apply poll_cases in PE.
      destruct PE as [(-> & ->)|[(-> & -> & _)|(fd & h & -> & I & ->)]].
      * constructor; auto; intros n; rewrite ?listed_snoc, ?seen_snoc; cbn; auto. apply SE.
      * constructor; auto; intros n; rewrite ?listed_snoc, ?seen_snoc; cbn; auto. apply SE.
      * assert (X : socks (if h && negb kq then Kern (socks k) (unlist fd (reg k)) else k) = socks k) by (destruct (h && negb kq); auto).
        constructor; rewrite ?X; auto.
        -- intros n H. apply RG. destruct (h && negb kq); auto. apply in_unlist in H. tauto.
        -- intros n. rewrite listed_snoc. cbn [listed_step]. destruct h; cbn [andb]; auto. destruct kq; cbn [negb reg].
           ++ rewrite andb_false_r. auto.
           ++ rewrite andb_true_r, in_unlist, LI. destruct (Z.eqb_spec fd n); intuition congruence.
        -- intros n. rewrite seen_snoc. apply SE.
Qed.

(** C43. A poll reports only a descriptor that the caller has added and neither
    closed nor (epoll) been told the end of; it says end-of-file exactly when the
    other end is closed; otherwise there is a message to receive. *)
Theorem poll_reports_truth {P} kq (tr : list (op P * res P)) k l k' fd eof :
  runs kq tr k -> possible (OPoll l) k -> step kq (OPoll l) k = (k', RPolled (Some (PTrue fd eof))) ->
  listed kq fd tr = true /\ is_open (seen fd tr) = true /\ eof = peer_closed (seen fd tr)
  /\ (eof = false -> waiting (seen fd tr) <> []).
Proof.
  intros R Pos E. apply agrees_run in R. destruct R as [ND RG LI SE]. cbn [step] in E.
  destruct (poll kq l k) as [k2 r2] eqn:PE. injection E as <- ->. apply poll_cases in PE.
  destruct PE as [(? & _)|[(? & _)|(n & h & X & I & _)]]; try discriminate. injection X as <- <-.
  cbn [possible] in Pos. rewrite Forall_forall in Pos. apply Pos in I. destruct I as (A & s & F & B & C).
  specialize (SE fd). rewrite F in SE. destruct SE as (S1 & S2 & S3). rewrite S1, S2, S3. split; [apply LI; auto|].
  split; auto. split; auto. intros Z. destruct B as [B|B]; auto. congruence.
Qed.
(** C43. Polling neither takes nor loses messages. *)
Theorem poll_keeps_messages {P} kq (k k' : kern P) l r : step kq (OPoll l) k = (k', r) -> socks k' = socks k.
Proof.
  cbn [step]. destruct (poll kq l k) as [k2 r2] eqn:PE. intros E. injection E as <- <-. apply poll_cases in PE.
  destruct PE as [(_ & ->)|[(_ & -> & _)|(n & h & _ & _ & ->)]]; auto. destruct (h && negb kq); auto.
Qed.
(** C43. After every history, whatever is waiting on an added descriptor can be
    reported, however often (epoll) the wait is interrupted first. *)
Theorem waiting_is_reportable {P} kq (tr : list (op P * res P)) k fd n :
  runs kq tr k -> listed kq fd tr = true -> waiting (seen fd tr) <> [] \/ peer_closed (seen fd tr) = true ->
  kq = false \/ n = 0%nat ->
  let l := repeat AIntr n ++ [AEvent fd (peer_closed (seen fd tr))] in
  possible (OPoll (P := P) l) k /\ snd (step kq (OPoll l) k) = RPolled (Some (PTrue fd (peer_closed (seen fd tr)))).
Proof.
  intros R L W Q l. apply agrees_run in R. destruct R as [ND RG LI SE]. apply LI in L. specialize (SE fd). pose proof (RG _ L) as O.
  destruct (find fd (socks k)) as [s|] eqn:F; [|congruence]. destruct SE as (S1 & S2 & S3). split.
  - cbn [possible]. apply Forall_app. split.
    + apply Forall_forall. intros a X. apply repeat_spec in X. subst. exact I.
    + repeat constructor; auto. exists s. rewrite S2, S3 in *. auto.
  - cbn [step]. unfold l. destruct Q as [->| ->].
    + cbn [poll]. induction n; cbn; [destruct (peer_closed (seen fd tr)); reflexivity|]. exact IHn.
    + destruct kq; cbn; [reflexivity|destruct (peer_closed (seen fd tr)); reflexivity].
Qed.

Lemma runs_inv {P} kq (tr : list (op P * res P)) k : runs kq tr k ->
  tr = [] \/ exists tr0 o r k0, tr = tr0 ++ [(o, r)] /\ runs kq tr0 k0 /\ possible o k0 /\ step kq o k0 = (k, r).
Proof. destruct 1; [auto|]. right. eexists _, _, _, _. eauto. Qed.
Lemma runs_last {P} kq (tr : list (op P * res P)) o r k : runs kq (tr ++ [(o, r)]) k ->
  exists k0, runs kq tr k0 /\ possible o k0 /\ step kq o k0 = (k, r).
Proof.
  intros H. apply runs_inv in H. destruct H as [H|(tr0 & o0 & r0 & k0 & E & H)]; [destruct tr; discriminate|].
  apply app_inj_tail in E. destruct E as [-> X]. injection X as -> ->. eauto.
Qed.
Lemma runs_split {P} kq (a b : list (op P * res P)) k : runs kq (a ++ b) k -> exists k0, runs kq a k0.
Proof.
  revert k. induction b as [|[o r] b IH] using rev_ind; intros k H; [rewrite app_nil_r in H; eauto|].
  rewrite app_assoc in H. apply runs_last in H. destruct H as (k0 & H & _). eauto.
Qed.
(** C43. With epoll, once end-of-file was reported, the descriptor is never
    reported again unless it is added again. *)
Theorem eof_reported_once {P} (a b : list (op P * res P)) l fd k :
  runs false (a ++ (OPoll l, RPolled (Some (PTrue fd true))) :: b) k ->
  (forall r, ~ In (OAdd fd, r) b) -> forall x, In x b -> ~ reports fd x.
Proof.
  intros R NA x X (l' & e & ->). apply in_split in X. destruct X as (b1 & b2 & ->).
  replace (a ++ (OPoll l, RPolled (Some (PTrue fd true))) :: b1 ++ (OPoll l', RPolled (Some (PTrue fd e))) :: b2)
    with ((((a ++ [(OPoll l, RPolled (Some (PTrue fd true)))]) ++ b1) ++ [(OPoll l', RPolled (Some (PTrue fd e)))]) ++ b2) in R
    by (rewrite <- !app_assoc; reflexivity).
  apply runs_split in R. destruct R as (k0 & R). apply runs_last in R. destruct R as (k1 & R & Pos & E).
  destruct (poll_reports_truth _ _ _ _ _ _ _ R Pos E) as (L & _). clear -L NA.
  assert (G : listed false fd ((a ++ [(OPoll l, RPolled (Some (PTrue fd true)))]) ++ b1) = false); [|congruence].
  clear L. induction b1 as [|[o r] b1 IH] using rev_ind.
  - rewrite app_nil_r, listed_snoc. cbn. rewrite Z.eqb_refl. reflexivity.
  - rewrite app_assoc, listed_snoc. rewrite IH.
    + assert (NX : o <> OAdd fd).
      { intros ->. apply (NA r). rewrite <- app_assoc. apply in_or_app. right. left. reflexivity. }
      destruct o as [| | | | |n|], r as [| |[]|[[|m []]|]]; cbn; auto; try (destruct (Z.eqb_spec n fd); congruence);
        try (match goal with |- context [if ?c then _ else _] => destruct c end; auto).
    + intros r0 H. apply (NA r0). rewrite <- app_assoc. apply in_app_or in H. apply in_or_app. destruct H; auto. right. apply in_or_app. auto.
Qed.

(** C43, limit. Messages sent before the other end closed are not announced: the
    only report about such a descriptor says end-of-file. *)
Theorem hangup_hides_messages {P} kq (tr : list (op P * res P)) k l k' fd eof :
  runs kq tr k -> waiting (seen fd tr) <> [] -> peer_closed (seen fd tr) = true ->
  possible (OPoll l) k -> step kq (OPoll l) k = (k', RPolled (Some (PTrue fd eof))) -> eof = true.
Proof. intros R W C Pos E. destruct (poll_reports_truth _ _ _ _ _ _ _ R Pos E) as (_ & _ & -> & _). auto. Qed.

(** C43. Signals: epoll's wait goes on, kqueue's fails (and its caller, the
    memory service, then ends the host process). *)
Theorem epoll_ignores_interruptions {P} n l (k : kern P) : step false (OPoll (repeat AIntr n ++ l)) k = step false (OPoll l) k.
Proof. cbn [step poll]. induction n; cbn; auto. Qed.
Theorem kqueue_fails_when_interrupted {P} l (k : kern P) : step true (OPoll (AIntr :: l)) k = (k, RPolled (Some PFalse)).
Proof. reflexivity. Qed.
(** C43. With kqueue end-of-file is reported again until the descriptor is
    closed. *)
Definition kq_again : list (op nat * res nat) :=
  [(OOpen 9 0, RNone); (OAdd 9, RAdded true); (OData 9 5%nat, RNone); (OHang 9, RNone);
   (OPoll [AEvent 9 true], RPolled (Some (PTrue 9 true))); (OPoll [AEvent 9 true], RPolled (Some (PTrue 9 true)))].
Fixpoint go {P} kq (os : list (op P)) tr (k : kern P) : list (op P * res P) * kern P :=
  match os with [] => (tr, k) | o :: r => let (k', x) := step kq o k in go kq r (tr ++ [(o, x)]) k' end.
Fixpoint oks {P} kq (os : list (op P)) (k : kern P) : Prop :=
  match os with [] => True | o :: r => possible o k /\ oks kq r (fst (step kq o k)) end.
Lemma go_runs {P} kq (os : list (op P)) : forall tr k, runs kq tr k -> oks kq os k -> runs kq (fst (go kq os tr k)) (snd (go kq os tr k)).
Proof.
  induction os as [|o os IH]; intros tr k R O; cbn [go]; auto. destruct O as [O1 O2]. destruct (step kq o k) as [k' x] eqn:E.
  apply IH; [econstructor; eauto|auto].
Qed.
Theorem kqueue_eof_reported_once_refuted : exists k, runs true kq_again k.
Proof.
  eexists. refine (go_runs true (map fst kq_again) [] init (runs_0 true) _).
  cbn. repeat split; auto; repeat constructor; cbn; auto; eexists; repeat split; auto.
Qed.

(** A message, then end of file, with epoll. *)
Definition ep_ex : list (op nat * res nat) :=
  [(OOpen 9 0, RNone); (OAdd 9, RAdded true); (OData 9 5%nat, RNone);
   (OPoll [AIntr; AEvent 9 false], RPolled (Some (PTrue 9 false))); (OTake 9, RTook (Some 5%nat)); (OHang 9, RNone);
   (OPoll [AEvent 9 true], RPolled (Some (PTrue 9 true)))].
Example poll_ex : exists k, runs false ep_ex k /\ listed false 9 ep_ex = false /\ waiting (seen 9 ep_ex) = [].
Proof.
  eexists. split; [|split; reflexivity]. refine (go_runs false (map fst ep_ex) [] init (runs_0 false) _).
  cbn. repeat split; auto; repeat constructor; cbn; auto; eexists; repeat split; auto. left. discriminate.
Qed.
Example waiting_ex : exists k, runs false (firstn 3 ep_ex) k /\ listed false 9 (firstn 3 ep_ex) = true /\ waiting (seen 9 (firstn 3 ep_ex)) = [5%nat].
Proof. destruct poll_ex as (k & R & _). change ep_ex with (firstn 3 ep_ex ++ skipn 3 ep_ex) in R. apply runs_split in R. destruct R as (k0 & R). exists k0. auto. Qed.

Print Assumptions poll_reports_truth.
Print Assumptions poll_keeps_messages.
Print Assumptions waiting_is_reportable.
Print Assumptions eof_reported_once.
Print Assumptions hangup_hides_messages.
Print Assumptions epoll_ignores_interruptions.
Print Assumptions kqueue_fails_when_interrupted.
Print Assumptions kqueue_eof_reported_once_refuted.
