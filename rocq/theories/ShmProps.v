(** C69: the memory object of a sandbox is new, has no name, and is private. *)
From Coq Require Import String Ascii List ZArith Lia Bool.
From Verif Require Import Base CheckModel MapModel MapProof ShmModel ShmSpec.
Import ListNotations.
Open Scope nat_scope.

Lemma find_lookup n l : lookup n l = None <-> ~ In n (map fst l).
Proof.
  unfold lookup. induction l as [|[k o] l IH]; cbn; [tauto|].
  destruct (text_eqb_spec k n) as [->|N]; cbn; [split; [discriminate|tauto]|].
  rewrite IH. tauto.
Qed.
Lemma lookup_in n l o : lookup n l = Some o -> In (n, o) l.
Proof.
  unfold lookup. induction l as [|[k o'] l IH]; cbn; [discriminate|].
  destruct (text_eqb_spec k n) as [->|N]; cbn; [intros [= ->]; auto|auto].
Qed.
Lemma remove_in n l k o : In (k, o) (remove n l) <-> In (k, o) l /\ k <> n.
Proof.
  unfold remove. rewrite filter_In. cbn. split; intros [A B]; split; auto.
  - intros ->. rewrite text_eqb_refl in B. discriminate.
  - destruct (text_eqb_spec k n); [contradiction|reflexivity].
Qed.
Lemma remove_nodup n l : NoDup (map fst l) -> NoDup (map fst (remove n l)).
Proof.
  induction l as [|[k o] l IH]; cbn; [auto|]. inversion 1; subst. destruct (negb (text_eqb k n)); cbn; [|auto].
  constructor; [|auto]. intros I. apply in_map_iff in I as ([k' o'] & <- & I). cbn in *. apply remove_in in I as [I _].
  match goal with X : ~ In _ _ |- _ => apply X end. apply in_map_iff. exists (k', o'). auto.
Qed.

Definition owns (s : shm) (p o : nat) : Prop := (exists n, who s p = Window n o) \/ got s p o.

Record inv (s0 : shm) (h : list op) (s : shm) : Prop := Inv {
  i_grow : next s0 <= next s;
  i_names : forall n o, In (n, o) (names s) -> o < next s;
  i_keys : NoDup (map fst (names s));
  i_holds : forall x o, In (x, o) (holds s) -> o < next s;
  i_owned : forall p o, owns s p o -> next s0 <= o < next s;
  i_apart : forall p q o, owns s p o -> owns s q o -> p = q;
  i_nameless : forall p o n, got s p o -> ~ In (n, o) (names s);
  i_window : forall p o n k, who s p = Window n o -> In (k, o) (names s) -> k = n;
  i_host : forall p o, In (Host p, o) (holds s) -> owns s p o;
  i_mine : forall p o, owns s p o -> In (Host p, o) (holds s);
  i_other : forall p o, owns s p o -> In (Outsider, o) (holds s) -> opened_in_window s0 h p o;
  i_left : forall n o, In (n, o) (names s) -> In (n, o) (names s0) \/ (exists p, who s p = Window n o) \/
    crashed_in_window s0 h n o \/ created_by_other s0 h n o }.

Lemma opened_more s0 h x p o : opened_in_window s0 h p o -> opened_in_window s0 (h ++ [x]) p o.
Proof. intros (h1 & n & h2 & s1 & -> & R & W). exists h1, n, (h2 ++ [x]), s1. rewrite <- app_assoc. auto. Qed.
Lemma crashed_more s0 h x n o : crashed_in_window s0 h n o -> crashed_in_window s0 (h ++ [x]) n o.
Proof. intros (h1 & p & h2 & s1 & -> & R & W). exists h1, p, (h2 ++ [x]), s1. rewrite <- app_assoc. auto. Qed.
Lemma created_more s0 h x n o : created_by_other s0 h n o -> created_by_other s0 (h ++ [x]) n o.
Proof. intros (h1 & h2 & s1 & -> & R & W). exists h1, (h2 ++ [x]), s1. rewrite <- app_assoc. auto. Qed.

Lemma set_same f p x : set_phase f p x p = x.
Proof. unfold set_phase. rewrite Nat.eqb_refl. reflexivity. Qed.
Lemma set_other f p x q : q <> p -> set_phase f p x q = f q.
Proof. intros N. unfold set_phase. destruct (Nat.eqb_spec q p); [contradiction|reflexivity]. Qed.

(** A process changes its phase to one in which it owns nothing, from one in
    which it owned nothing. *)
Definition empty_phase (x : phase) : Prop := match x with Window _ _ | Done (Some _) => False | _ => True end.
Lemma empty_owns s p o : empty_phase (who s p) -> ~ owns s p o.
Proof. intros E [[n W]|W]; [|unfold got in W]; rewrite W in E; exact E. Qed.

Lemma owns_set s p x q o m b hs : owns (Shm m b (set_phase (who s) p x) hs) q o ->
  (q = p /\ ((exists n, x = Window n o) \/ x = Done (Some o))) \/ (q <> p /\ owns s q o).
Proof.
  unfold owns, got. cbn. destruct (Nat.eq_dec q p) as [->|N].
  - rewrite !set_same. auto.
  - rewrite !(set_other _ _ _ _ N). auto.
Qed.

Lemma inv_same_phase s0 h s p x o' : inv s0 h s -> empty_phase (who s p) -> empty_phase x ->
  inv s0 (h ++ [o']) (Shm (names s) (next s) (set_phase (who s) p x) (holds s)).
Proof.
  intros [] E X.
  assert (O : forall q o, owns (Shm (names s) (next s) (set_phase (who s) p x) (holds s)) q o -> owns s q o).
  { intros q o H. apply owns_set in H as [[-> [[n ->]| ->]]|[_ H]]; [destruct X|destruct X|exact H]. }
  assert (B : forall q o, owns s q o -> owns (Shm (names s) (next s) (set_phase (who s) p x) (holds s)) q o).
  { intros q o H. destruct (Nat.eq_dec q p) as [->|N]; [exfalso; eapply empty_owns; eauto|].
    unfold owns, got in *. cbn. rewrite !(set_other _ _ _ _ N). exact H. }
  constructor; cbn [names next holds who]; try assumption.
  - intros q o H. apply O in H. eauto.
  - intros q r o H K. eauto.
  - intros q o n H. destruct (O q o (or_intror H)) as [[k W]|G]; [|eauto].
    destruct (Nat.eq_dec q p) as [->|N]; [rewrite W in E; destruct E|].
    unfold got in H. cbn in H. rewrite (set_other _ _ _ _ N), W in H. discriminate.
  - intros q o n k H. destruct (Nat.eq_dec q p) as [->|N]; [rewrite set_same in H; subst x; destruct X|].
    rewrite (set_other _ _ _ _ N) in H. eauto.
  - intros q o H. apply B. eauto.
  - intros q o H. apply O in H. eauto.
  - intros q o H K. apply opened_more. eauto.
  - intros n o H. destruct (i_left0 n o H) as [A|[[q W]|[A|A]]]; [auto| | |].
    + right. left. exists q. rewrite set_other; [assumption|]. intros ->. rewrite W in E. destruct E.
    + right. right. left. apply crashed_more. assumption.
    + right. right. right. apply created_more. assumption.
Qed.

Lemma inv_new s0 h s p ns x o' : inv s0 h s -> empty_phase (who s p) ->
  (ns = names s /\ x = Done (Some (next s)) \/
   exists n, ns = (n, next s) :: names s /\ x = Window n (next s) /\ ~ In n (map fst (names s))) ->
  inv s0 (h ++ [o']) (Shm ns (S (next s)) (set_phase (who s) p x) ((Host p, next s) :: holds s)).
Proof.
  intros [] E C.
  set (s' := Shm ns (S (next s)) (set_phase (who s) p x) ((Host p, next s) :: holds s)).
  assert (XO : (exists n o, x = Window n o /\ o = next s) \/ x = Done (Some (next s))).
  { destruct C as [[_ ->]|(n & _ & -> & _)]; eauto. }
  assert (O : forall q o, owns s' q o -> (q = p /\ o = next s) \/ (q <> p /\ owns s q o)).
  { intros q o H. apply owns_set in H as [[-> H]|H]; [left|auto]. split; [reflexivity|].
    destruct XO as [(n & o1 & -> & ->)| ->]; destruct H as [[k H]|H]; congruence. }
  assert (B : forall q o, owns s q o -> owns s' q o).
  { intros q o H. destruct (Nat.eq_dec q p) as [->|N]; [exfalso; eapply empty_owns; eauto|].
    unfold owns, got, s' in *. cbn. rewrite !(set_other _ _ _ _ N). exact H. }
  assert (P : owns s' p (next s)).
  { unfold owns, got, s'. cbn. rewrite !set_same. destruct XO as [(n & o1 & -> & ->)| ->]; eauto. }
  assert (NS : forall n o, In (n, o) ns -> In (n, o) (names s) \/ (o = next s /\ x = Window n (next s))).
  { intros n o H. destruct C as [[-> _]|(k & -> & -> & _)]; [auto|]. destruct H as [[= <- <-]|H]; auto. }
  constructor; cbn [names next holds who s']; fold s'.
  - lia.
  - intros n o H. apply NS in H as [H|[-> _]]; [specialize (i_names0 _ _ H)|]; lia.
  - destruct C as [[-> _]|(k & -> & -> & N)]; [assumption|]. cbn. constructor; assumption.
  - intros y o [[= <- <-]|H]; [lia|]. specialize (i_holds0 _ _ H). lia.
  - intros q o H. apply O in H as [[-> ->]|[_ H]]; [lia|]. specialize (i_owned0 _ _ H). lia.
  - intros q r o H K. apply O in H as [[-> ->]|[N H]]; apply O in K as [[-> K]|[N' K]]; auto.
    + apply i_owned0 in K. lia.
    + apply i_owned0 in H. lia.
    + eauto.
  - intros q o n H K. apply NS in K as [K|[-> ->]].
    + destruct (O q o (or_intror H)) as [[-> ->]|[N [[k W]|G]]].
      * apply i_names0 in K. lia.
      * unfold got, s' in H. cbn in H. rewrite (set_other _ _ _ _ N), W in H. discriminate.
      * eapply i_nameless0; eauto.
    + destruct (O q _ (or_intror H)) as [[-> _]|[N G]]; [|apply i_owned0 in G; lia].
      unfold got, s' in H. cbn in H. rewrite set_same in H. discriminate.
  - intros q o n k H K. destruct (Nat.eq_dec q p) as [->|N].
    + rewrite set_same in H. subst x. apply NS in K as [K|[-> [= ->]]]; [|reflexivity].
      destruct C as [[_ C]|(n' & _ & [= -> ->] & _)]; [discriminate|]. apply i_names0 in K. lia.
    + rewrite (set_other _ _ _ _ N) in H. apply NS in K as [K|[-> _]]; [eauto|].
      assert (X : owns s q (next s)) by (left; eauto). apply i_owned0 in X. lia.
  - intros q o [[= -> <-]|H]; [exact P|]. apply B. eauto.
  - intros q o H. apply O in H as [[-> ->]|[_ H]]; [left; reflexivity|right; eauto].
  - intros q o H [K|K]; [discriminate|]. apply O in H as [[-> ->]|[_ H]]; [apply i_holds0 in K; lia|].
    apply opened_more. eauto.
  - intros n o H. apply NS in H as [H|[-> ->]].
    + destruct (i_left0 n o H) as [A|[[q W]|[A|A]]]; [auto| | |].
      * right. left. exists q. rewrite set_other; [assumption|]. intros ->. rewrite W in E. destruct E.
      * right. right. left. apply crashed_more. assumption.
      * right. right. right. apply created_more. assumption.
    + right. left. exists p. apply set_same.
Qed.

Lemma inv_step s0 h s o s' : runs s0 h s -> inv s0 h s -> step o s = Some s' -> inv s0 (h ++ [o]) s'.
Proof.
  intros R I S. destruct o as [p works|p r fails|p|p|n|n|n]; cbn [step] in S.
  - destruct (who s p) as [[]| | | |] eqn:W; try discriminate; injection S as <-.
    + apply inv_same_phase; [assumption|rewrite W; exact Logic.I|exact Logic.I].
    + destruct works.
      * apply inv_new; [assumption|rewrite W; exact Logic.I|auto].
      * apply inv_same_phase; [assumption|rewrite W; exact Logic.I|exact Logic.I].
    + destruct works.
      * apply inv_new; [assumption|rewrite W; exact Logic.I|auto].
      * apply inv_same_phase; [assumption|rewrite W; exact Logic.I|exact Logic.I].
  - destruct (who s p) eqn:W; try discriminate. destruct (lookup (shm_name r) (names s)) eqn:L; injection S as <-.
    + destruct I. constructor; try assumption.
      * intros. apply opened_more. eauto.
      * intros k o H. destruct (i_left0 k o H) as [A|[A|[A|A]]]; auto using crashed_more, created_more.
    + destruct fails.
      * apply inv_same_phase; [assumption|rewrite W; exact Logic.I|exact Logic.I].
      * apply inv_new; [assumption|rewrite W; exact Logic.I|]. right. exists (shm_name r). split; [reflexivity|].
        split; [reflexivity|]. apply find_lookup. assumption.
  - destruct (who s p) as [| |n o| |] eqn:W; try discriminate. injection S as <-. destruct I.
    assert (O : forall q k, owns (Shm (remove n (names s)) (next s) (set_phase (who s) p (Done (Some o))) (holds s)) q k -> owns s q k).
    { intros q k H. apply owns_set in H as [[-> [[m H]|H]]|[_ H]]; [discriminate| |assumption]. injection H as <-. left. eauto. }
    constructor; cbn [names next holds who]; try assumption.
    + intros k j H. apply remove_in in H as [H _]. eauto.
    + apply remove_nodup. assumption.
    + intros q k H. apply O in H. eauto.
    + intros q q' k H K. eauto.
    + intros q k m H K. apply remove_in in K as [K N]. unfold got in H. cbn in H. destruct (Nat.eq_dec q p) as [->|NP].
      * rewrite set_same in H. injection H as <-. apply N. eauto.
      * rewrite (set_other _ _ _ _ NP) in H. eapply i_nameless0; eauto.
    + intros q k m j H K. apply remove_in in K as [K N]. destruct (Nat.eq_dec q p) as [->|NP]; [rewrite set_same in H; discriminate|].
      rewrite (set_other _ _ _ _ NP) in H. eauto.
    + intros q k H. apply i_host0 in H. destruct (Nat.eq_dec q p) as [->|NP].
      * unfold owns, got in *. cbn. rewrite set_same. rewrite W in H. right. destruct H as [[m [= <- <-]]|H]; [reflexivity|discriminate].
      * unfold owns, got in *. cbn. rewrite !(set_other _ _ _ _ NP). exact H.
    + intros q k H. apply O in H. eauto.
    + intros q k H K. apply opened_more. eauto.
    + intros m k H. apply remove_in in H as [H N]. destruct (i_left0 m k H) as [A|[[q A]|[A|A]]]; [auto| | |].
      * right. left. exists q. rewrite set_other; [assumption|]. intros ->. rewrite W in A. injection A as -> _. contradiction.
      * right. right. left. apply crashed_more. assumption.
      * right. right. right. apply created_more. assumption.
  - assert (S' : s' = Shm (names s) (next s) (set_phase (who s) p Ended) (filter (fun x => negb (is_host p (fst x))) (holds s))).
    { destruct (who s p); congruence. }
    assert (N : who s p <> Ended) by (intros E; rewrite E in S; discriminate). clear S. subst s'. pose proof I as I0. destruct I.
    assert (O : forall q k, owns (Shm (names s) (next s) (set_phase (who s) p Ended) (filter (fun x => negb (is_host p (fst x))) (holds s))) q k -> q <> p /\ owns s q k).
    { intros q k H. apply owns_set in H as [[-> [[m H]|H]]|H]; [discriminate|discriminate|assumption]. }
    assert (B : forall q k, q <> p -> owns s q k -> owns (Shm (names s) (next s) (set_phase (who s) p Ended) (filter (fun x => negb (is_host p (fst x))) (holds s))) q k).
    { intros q k NP H. unfold owns, got in *. cbn. rewrite !(set_other _ _ _ _ NP). exact H. }
    constructor; cbn [names next holds who]; try assumption.
    + intros x k H. apply filter_In in H as [H _]. eauto.
    + intros q k H. apply O in H as [_ H]. eauto.
    + intros q q' k H K. apply O in H as [_ H]. apply O in K as [_ K]. eauto.
    + intros q k m H. unfold got in H. cbn in H. destruct (Nat.eq_dec q p) as [->|NP]; [rewrite set_same in H; discriminate|].
      rewrite (set_other _ _ _ _ NP) in H. eauto.
    + intros q k m j H. destruct (Nat.eq_dec q p) as [->|NP]; [rewrite set_same in H; discriminate|].
      rewrite (set_other _ _ _ _ NP) in H. eauto.
    + intros q k H. apply filter_In in H as [H K]. cbn in K. destruct (Nat.eqb_spec q p); [discriminate|]. apply B; eauto.
    + intros q k H. apply O in H as [NP H]. apply filter_In. split; [eauto|]. cbn. destruct (Nat.eqb_spec q p); [contradiction|reflexivity].
    + intros q k H K. apply filter_In in K as [K _]. apply O in H as [_ H]. apply opened_more. eauto.
    + intros m k H. destruct (i_left0 m k H) as [A|[[q A]|[A|A]]]; [auto| | |].
      * destruct (Nat.eq_dec q p) as [->|NP].
        -- right. right. left. exists h, p, [], s. auto.
        -- right. left. exists q. rewrite set_other; assumption.
      * right. right. left. apply crashed_more. assumption.
      * right. right. right. apply created_more. assumption.
  - destruct (lookup n (names s)) eqn:L; injection S as <-; destruct I.
    + constructor; try assumption.
      * intros. apply opened_more. eauto.
      * intros k o H. destruct (i_left0 k o H) as [A|[A|[A|A]]]; auto using crashed_more.
        right. right. right. apply created_more. assumption.
    + assert (O : forall q k, owns (Shm ((n, next s) :: names s) (S (next s)) (who s) ((Outsider, next s) :: holds s)) q k <-> owns s q k) by (intros; reflexivity).
      assert (OL : forall q, ~ owns s q (next s)) by (intros q H; apply i_owned0 in H; lia).
      constructor; cbn [names next holds who].
      * lia.
      * intros k j [[= <- <-]|H]; [lia|]. apply i_names0 in H. lia.
      * cbn. constructor; [apply find_lookup; assumption|assumption].
      * intros x k [[= <- <-]|H]; [lia|]. apply i_holds0 in H. lia.
      * intros q k H. apply O in H. apply i_owned0 in H. lia.
      * intros q q' k H K. eapply i_apart0; apply O; eassumption.
      * intros q k m H [[= <- <-]|K]; [apply (OL q); right; exact H|eapply i_nameless0; eauto].
      * intros q k m j H [[= <- <-]|K]; [exfalso; apply (OL q); left; eauto|eauto].
      * intros q k [K|K]; [discriminate|]. apply O. eauto.
      * intros q k H. right. apply i_mine0. apply O. assumption.
      * intros q k H [[= <-]|K]; [apply O in H; exfalso; eapply OL; eauto|]. apply opened_more. apply O in H. eauto.
      * intros k j [[= <- <-]|H].
        -- right. right. right. exists h, [], s. split; [reflexivity|]. split; [assumption|]. split; [reflexivity|]. apply find_lookup. assumption.
        -- destruct (i_left0 k j H) as [A|[A|[A|A]]]; auto using crashed_more.
           right. right. right. apply created_more. assumption.
  - destruct (lookup n (names s)) as [o|] eqn:L; injection S as <-; destruct I.
    + apply lookup_in in L. constructor; cbn [names next holds who]; try assumption.
      * intros x k [[= <- <-]|H]; [eauto|eauto].
      * intros q k [K|K]; [discriminate|]. eauto.
      * intros q k H. right. eauto.
      * intros q k H [[= <-]|K].
        -- destruct H as [[m W]|G]; [|exfalso; eapply i_nameless0; eauto]. cbn in W.
           pose proof (i_window0 _ _ _ _ W L) as ->. exists h, m, [], s. auto.
        -- apply opened_more. eauto.
      * intros k j H. destruct (i_left0 k j H) as [A|[A|[A|A]]]; auto using crashed_more.
        right. right. right. apply created_more. assumption.
    + constructor; try assumption.
      * intros. apply opened_more. eauto.
      * intros k o H. destruct (i_left0 k o H) as [A|[A|[A|A]]]; auto using crashed_more.
        right. right. right. apply created_more. assumption.
  - injection S as <-. destruct I. constructor; cbn [names next holds who]; try assumption.
    + intros k j H. apply remove_in in H as [H _]. eauto.
    + apply remove_nodup. assumption.
    + intros q k m H K. apply remove_in in K as [K _]. eapply i_nameless0; eauto.
    + intros q k m j H K. apply remove_in in K as [K _]. eauto.
    + intros q k H K. apply opened_more. eauto.
    + intros k j H. apply remove_in in H as [H _]. destruct (i_left0 k j H) as [A|[A|[A|A]]]; auto using crashed_more.
      right. right. right. apply created_more. assumption.
Qed.

Lemma inv_runs s0 h s : start s0 -> runs s0 h s -> inv s0 h s.
Proof.
  intros (A & B & C & D). induction 1 as [|h s o s' R IH S].
  - assert (O : forall p o, ~ owns s0 p o).
    { intros p o [[n W]|G]; destruct (A p) as [w E]; [|unfold got in G]; congruence. }
    constructor; auto.
    + intros x o H. apply (C x o H).
    + intros p o H. destruct (O p o H).
    + intros p q o H. destruct (O p o H).
    + intros p o n H. destruct (O p o (or_intror H)).
    + intros p o n k H. destruct (O p o). left. eauto.
    + intros p o H. apply C in H as [H _]. discriminate.
    + intros p o H. destruct (O p o H).
    + intros p o H. destruct (O p o H).
  - eapply inv_step; eauto.
Qed.

(** ** The claims *)

(** Every process gets an object of its own: a new one, that no other process
    has got and that did not exist before. *)
Theorem shm_object_new : forall s0 h s p o, start s0 -> runs s0 h s -> got s p o ->
  (forall n, ~ In (n, o) (names s0)) /\ (forall x, ~ In (x, o) (holds s0)) /\ (forall q, got s q o -> q = p).
Proof.
  intros s0 h s p o B R G. pose proof (inv_runs s0 h s B R) as []. destruct B as (_ & B1 & B2 & _).
  assert (X : next s0 <= o < next s) by (apply (i_owned0 p); right; exact G). split; [|split].
  - intros n H. apply B1 in H. lia.
  - intros x H. apply B2 in H. lia.
  - intros q H. apply (i_apart0 q p o); right; assumption.
Qed.
Print Assumptions shm_object_new.

(** It has no name, so nobody can open it any more. *)
Theorem shm_object_nameless : forall s0 h s p o n, start s0 -> runs s0 h s -> got s p o -> ~ In (n, o) (names s).
Proof. intros s0 h s p o n B R G. pose proof (inv_runs s0 h s B R) as []. eauto. Qed.
Print Assumptions shm_object_nameless.

(** The process that got it has it open, and nobody else has, unless somebody
    opened it while it had its name. *)
Theorem shm_object_private : forall s0 h s p o x, start s0 -> runs s0 h s -> got s p o ->
  In (Host p, o) (holds s) /\
  (In (x, o) (holds s) -> x = Host p \/ (x = Outsider /\ opened_in_window s0 h p o)).
Proof.
  intros s0 h s p o x B R G. pose proof (inv_runs s0 h s B R) as []. split; [apply i_mine0; right; exact G|].
  intros H. destruct x as [q|].
  - left. f_equal. apply (i_apart0 q p o); [apply i_host0; assumption|right; assumption].
  - right. split; [reflexivity|]. apply i_other0; [right; assumption|assumption].
Qed.
Print Assumptions shm_object_private.

(** What somebody else has opened they keep: no step of the processes, not even their
    end, takes it back. *)
Theorem shm_outsiders_keep : forall s0 h s o, runs s0 h s -> In (Outsider, o) (holds s0) -> In (Outsider, o) (holds s).
Proof.
  intros s0 h s o R H. induction R as [|h s x s' R IH S]; [exact H|].
  destruct x as [q works|q r fails|q|q|n|n|n]; cbn [step] in S.
  - destruct (who s q) as [[]| | | |]; try discriminate; [|destruct works|destruct works]; injection S as <-; cbn [holds anonymous]; auto using in_cons.
  - destruct (who s q); try discriminate. destruct (lookup _ _); [injection S as <-; exact IH|].
    destruct fails; injection S as <-; cbn [holds]; auto using in_cons.
  - destruct (who s q); try discriminate; injection S as <-; exact IH.
  - destruct (who s q); try discriminate; injection S as <-; cbn [holds]; (apply filter_In; split; [exact IH|reflexivity]).
  - destruct (lookup _ _); injection S as <-; cbn [holds]; auto using in_cons.
  - destruct (lookup _ _); injection S as <-; cbn [holds]; auto using in_cons.
  - injection S as <-. exact IH.
Qed.
Print Assumptions shm_outsiders_keep.

(** Whatever crashes there were, the names in the namespace are those that were
    there, those that other programs made, and one for each process that is
    between making and removing a name or ended there. *)
Theorem shm_leftovers : forall s0 h s n o, start s0 -> runs s0 h s -> In (n, o) (names s) ->
  In (n, o) (names s0) \/ (exists p, who s p = Window n o) \/ crashed_in_window s0 h n o \/ created_by_other s0 h n o.
Proof. intros s0 h s n o B R. pose proof (inv_runs s0 h s B R) as []. eauto. Qed.
Print Assumptions shm_leftovers.

Lemma shm_name_inj a b : is_random a -> is_random b -> shm_name a = shm_name b -> a = b.
Proof.
  unfold shm_name, is_random. intros A B E. apply app_inv_head in E.
  assert (WA : is_word a) by (unfold is_word, W; lia). assert (WB : is_word b) by (unfold is_word, W; lia).
  pose proof (strtoull_hex a [] WA Logic.I) as XA. pose proof (strtoull_hex b [] WB Logic.I) as XB. rewrite app_nil_r in *.
  congruence.
Qed.

Lemma play_app a b s s' : play a s = Some s' -> play (a ++ b) s = play b s'.
Proof.
  revert s. induction a as [|o a IH]; intros s E; cbn in *; [congruence|].
  destruct (step o s); [eauto|discriminate].
Qed.

(** The random numbers that fall on names in use cost a round each; the first
    other one ends the loop, if the kernel makes objects at all. *)
Lemma tries_taken s p rs : who s p = Choosing -> Forall (fun r => In (shm_name r) (map fst (names s))) rs ->
  play (map (fun r => Try p r false) rs) s = Some s.
Proof.
  intros W F. induction F as [|r rs H F IH]; [reflexivity|]. cbn [map play step]. rewrite W.
  destruct (lookup (shm_name r) (names s)) eqn:L; [exact IH|]. apply find_lookup in L. contradiction.
Qed.

Theorem shm_creation_ends : forall s p rs, who s p = Choosing -> NoDup rs -> Forall is_random rs ->
  length (names s) < length rs ->
  exists k r s', nth_error rs k = Some r /\ k <= length (names s) /\
    play (map (fun r => Try p r false) (firstn (S k) rs) ++ [Unlink p]) s = Some s' /\ got s' p (next s) /\
    forall n o, In (n, o) (names s') <-> In (n, o) (names s).
Proof.
  intros s p rs W N F L.
  assert (X : exists k r, nth_error rs k = Some r /\ ~ In (shm_name r) (map fst (names s)) /\
    Forall (fun r => In (shm_name r) (map fst (names s))) (firstn k rs)).
  { assert (E : Exists (fun r => ~ In (shm_name r) (map fst (names s))) rs).
    { assert (D : forall r, {In (shm_name r) (map fst (names s))} + {~ In (shm_name r) (map fst (names s))}) by (intros; apply in_dec, text_eq_dec).
      destruct (Forall_Exists_dec _ D rs) as [A|A]; [|exact A]. exfalso.
      assert (I : incl (map shm_name rs) (map fst (names s))).
      { intros x H. apply in_map_iff in H as (r & <- & H). rewrite Forall_forall in A. auto. }
      apply NoDup_incl_length in I; [rewrite !map_length in I; lia|].
      clear - N F. induction N as [|r rs R N IH]; [constructor|]. inversion F; subst. cbn. constructor; [|auto].
      intros H. apply in_map_iff in H as (r' & E & H). apply R. rewrite Forall_forall in *. rewrite (shm_name_inj r r'); auto. }
    clear - E. induction E as [r rs H|r rs H IH].
    - exists 0, r. repeat split; [assumption|constructor].
    - destruct (in_dec text_eq_dec (shm_name r) (map fst (names s))) as [I|I].
      + destruct IH as (k & r' & A & B & C). exists (S k), r'. repeat split; [assumption|assumption|]. cbn. constructor; assumption.
      + exists 0, r. repeat split; [assumption|constructor]. }
  destruct X as (k & r & A & B & C).
  assert (SP : firstn (S k) rs = firstn k rs ++ [r]).
  { clear - A. revert rs A. induction k as [|k IH]; intros [|x rs] A; cbn in *; try discriminate; [congruence|]. f_equal. apply IH. assumption. }
  exists k, r. eexists. split; [assumption|]. split.
  - assert (KL : length (firstn k rs) = k) by (apply firstn_length_le; apply nth_error_Some_length in A || (assert (nth_error rs k <> None) by congruence; apply nth_error_Some in H; lia); lia).
    rewrite <- KL, <- (map_length shm_name), <- (map_length fst (names s)). apply NoDup_incl_length.
    + assert (NF : NoDup (firstn k rs)).
      { clear - N. revert rs N. induction k as [|k IH]; intros [|x rs] N; cbn; try constructor; inversion N; subst; [|auto].
        intros I. match goal with X : ~ In _ _ |- _ => apply X end. clear - I. revert rs I. induction k as [|k IH]; intros [|y rs] I; cbn in *; try tauto. destruct I; auto. }
      assert (FF : Forall is_random (firstn k rs)).
      { clear - F. revert k. induction F; intros [|k]; cbn; constructor; auto. }
      clear - NF FF. induction NF as [|x l R NF IH]; [constructor|]. inversion FF; subst. cbn. constructor; [|auto].
      intros H. apply in_map_iff in H as (r' & E & H). apply R. rewrite Forall_forall in *. rewrite (shm_name_inj x r'); auto.
    + intros x H. apply in_map_iff in H as (r' & <- & H). rewrite Forall_forall in C. auto.
  - rewrite SP, map_app, <- app_assoc. rewrite (play_app _ _ _ _ (tries_taken s p _ W C)). cbn [app map play step]. rewrite W.
    apply find_lookup in B. rewrite B. cbn [who names next holds]. rewrite set_same. split; [reflexivity|]. split; [unfold got; cbn [who]; apply set_same|].
    intros n o. apply find_lookup in B. cbn [names]. rewrite remove_in. cbn [In]. split.
    + intros [[[= <- <-]|H] K]; [contradiction|assumption].
    + intros H. split; [auto|]. intros ->. apply B. apply in_map_iff. exists (shm_name r, o). auto.
Qed.
Print Assumptions shm_creation_ends.

(** A process is left without an object only if the kernel refused to make one
    for another reason than a name in use, *)
Theorem shm_failure_is_the_kernels : forall s0 h s p, start s0 -> runs s0 h s -> who s p = Done None ->
  (exists r, In (Try p r true) h) \/ In (Begin p false) h.
Proof.
  intros s0 h s p B. induction 1 as [|h s o s' R IH S]; intros W.
  - destruct B as (A & _). destruct (A p) as [w E]. congruence.
  - assert (M : (exists r, In (Try p r true) h) \/ In (Begin p false) h ->
      (exists r, In (Try p r true) (h ++ [o])) \/ In (Begin p false) (h ++ [o])).
    { intros [[r I]|I]; [left; exists r|right]; apply in_or_app; auto. }
    assert (K : forall q x, set_phase (who s) q x p = Done None -> (q = p /\ x = Done None) \/ who s p = Done None).
    { intros q x. unfold set_phase. destruct (Nat.eqb_spec p q); auto. }
    destruct o as [q works|q r fails|q|q|n|n|n]; cbn [step] in S.
    + destruct (who s q) as [[]| | | |] eqn:Q; try discriminate; [|destruct works|destruct works]; injection S as <-; cbn [who anonymous] in W;
        apply K in W as [[-> W]|W]; try discriminate; auto.
      right. apply in_or_app. right. left. reflexivity.
    + destruct (who s q) eqn:Q; try discriminate. destruct (lookup (shm_name r) (names s)); [injection S as <-; auto|].
      destruct fails; injection S as <-; cbn [who] in W; apply K in W as [[-> W]|W]; try discriminate; auto.
      left. exists r. apply in_or_app. right. left. reflexivity.
    + destruct (who s q) eqn:Q; try discriminate. injection S as <-. cbn [who] in W. apply K in W as [[-> W]|W]; [discriminate|auto].
    + assert (X : s' = Shm (names s) (next s) (set_phase (who s) q Ended) (filter (fun x => negb (is_host q (fst x))) (holds s))) by (destruct (who s q); congruence).
      subst s'. cbn [who] in W. apply K in W as [[-> W]|W]; [discriminate|auto].
    + destruct (lookup n (names s)); injection S as <-; auto.
    + destruct (lookup n (names s)); injection S as <-; auto.
    + injection S as <-. auto.
Qed.
Print Assumptions shm_failure_is_the_kernels.

(** and then the process that wanted it ends, as it does when the object cannot be
    given its size. *)
Theorem shm_no_object_ends : forall release fd truncates,
  resize release fd truncates = match fd with Some o => if truncates then Ret o else Aborts | None => Aborts end.
Proof. intros [|] [o|] [|]; reflexivity. Qed.
Print Assumptions shm_no_object_ends.

(** ** Limits and concrete cases *)

Definition shm_start : shm := Shm [(shm_name 7, 0)] 1 (fun p => Idle (if Nat.eqb p 2 then MemFd else Posix)) [(Outsider, 0)].
Lemma shm_start_ok : start shm_start.
Proof.
  split; [|split; [|split]].
  - intros p. cbn. destruct (Nat.eqb p 2); eauto.
  - intros n o [[= <- <-]|[]]. cbn. lia.
  - intros x o [[= <- <-]|[]]. cbn. auto.
  - cbn. constructor; [intros []|constructor].
Qed.
Lemma play_runs s0 h s os s' : runs s0 h s -> play os s = Some s' -> runs s0 (h ++ os) s'.
Proof.
  revert h s. induction os as [|o os IH]; intros h s R E; cbn in E.
  - injection E as <-. rewrite app_nil_r. assumption.
  - destruct (step o s) as [s1|] eqn:S; [|discriminate]. change (o :: os) with ([o] ++ os). rewrite app_assoc.
    apply (IH _ s1); [econstructor; eassumption|assumption].
Qed.

(** Three processes at once, one of which ends in its window: the others get
    objects of their own, and one name is left. *)
Definition shm_history : list op :=
  [Begin 0 true; Begin 1 true; Try 0 7 false; Begin 2 true; Try 0 9 false; Try 1 9 false; Try 1 4 false; Crash 0; Unlink 1].
Example shm_history_runs : exists s, runs shm_start shm_history s /\ got s 1 3 /\ got s 2 1 /\
  names s = [(shm_name 9, 2); (shm_name 7, 0)].
Proof.
  destruct (play shm_history shm_start) as [s|] eqn:E; [|vm_compute in E; discriminate].
  exists s. split; [apply (play_runs _ [] shm_start); [constructor|exact E]|].
  assert (X : Some (who s 1, who s 2, names s) = Some (Done (Some 3), Done (Some 1), [(shm_name 9, 2); (shm_name 7, 0)])).
  { transitivity (option_map (fun s => (who s 1, who s 2, names s)) (play shm_history shm_start)); [rewrite E; reflexivity|].
    vm_compute. reflexivity. }
  injection X as A B C. unfold got. auto.
Qed.
Example shm_ends_hypotheses : forall s, names s = names shm_start -> NoDup [7%Z; 9%Z] /\ Forall is_random [7%Z; 9%Z] /\ length (names s) < length [7%Z; 9%Z].
Proof.
  intros s ->. split; [repeat constructor; cbn; intuition; discriminate|]. split; [|cbn; lia].
  repeat constructor; cbn; unfold is_random; lia.
Qed.

(** A program that knows or guesses the name and opens it in time shares the
    sandbox's memory. *)
Theorem shm_object_private_refuted : exists s0 h s p o, start s0 /\ runs s0 h s /\ got s p o /\ In (Outsider, o) (holds s).
Proof.
  destruct (play [Begin 0 true; Try 0 9 false; OtherOpen (shm_name 9); Unlink 0] shm_start) as [s|] eqn:E; [|vm_compute in E; discriminate].
  exists shm_start, ([] ++ [Begin 0 true; Try 0 9 false; OtherOpen (shm_name 9); Unlink 0]), s, 0, 1.
  split; [apply shm_start_ok|]. split; [apply (play_runs _ [] shm_start); [constructor|exact E]|].
  assert (X : Some (who s 0, holds s) = Some (Done (Some 1), [(Outsider, 1); (Host 0, 1); (Outsider, 0)])).
  { transitivity (option_map (fun s => (who s 0, holds s)) (play [Begin 0 true; Try 0 9 false; OtherOpen (shm_name 9); Unlink 0] shm_start)); [rewrite E; reflexivity|].
    vm_compute. reflexivity. }
  injection X as A B. split; [exact A|]. rewrite B. left. reflexivity.
Qed.
Print Assumptions shm_object_private_refuted.

(** The name is removed whatever object it has by then: if the name has been
    removed and used again, somebody else's object loses it. *)
Theorem shm_removes_only_its_own_name_refuted : exists s0 h s s' p n o o',
  start s0 /\ runs s0 h s /\ who s p = Window n o /\ In (n, o') (names s) /\ o' <> o /\ created_by_other s0 h n o' /\
  step (Unlink p) s = Some s' /\ ~ In n (map fst (names s')).
Proof.
  destruct (play [Begin 0 true; Try 0 9 false; OtherRemove (shm_name 9)] shm_start) as [s1|] eqn:E1; [|vm_compute in E1; discriminate].
  destruct (step (OtherCreate (shm_name 9)) s1) as [s|] eqn:E2.
  2:{ cbn [step] in E2. destruct (lookup (shm_name 9) (names s1)); discriminate. }
  assert (X1 : Some (who s1 0, names s1, next s1) = Some (Window (shm_name 9) 1, [(shm_name 7, 0)], 2)).
  { transitivity (option_map (fun s => (who s 0, names s, next s)) (play [Begin 0 true; Try 0 9 false; OtherRemove (shm_name 9)] shm_start)); [rewrite E1; reflexivity|].
    vm_compute. reflexivity. }
  injection X1 as A B C.
  assert (R1 : runs shm_start ([] ++ [Begin 0 true; Try 0 9 false; OtherRemove (shm_name 9)]) s1) by (apply (play_runs _ [] shm_start); [constructor|exact E1]).
  assert (NI : ~ In (shm_name 9) (map fst (names s1))) by (rewrite B; intros [H|[]]; discriminate).
  pose proof E2 as E3. cbn [step] in E3. rewrite (proj2 (find_lookup _ _) NI) in E3. injection E3 as E3.
  exists shm_start, (([] ++ [Begin 0 true; Try 0 9 false; OtherRemove (shm_name 9)]) ++ [OtherCreate (shm_name 9)]), s.
  eexists. exists 0, (shm_name 9), 1, 2.
  assert (W : who s 0 = Window (shm_name 9) 1) by (subst s; exact A).
  assert (N : names s = (shm_name 9, 2) :: [(shm_name 7, 0)]) by (subst s; cbn [names]; rewrite B, C; reflexivity).
  split; [apply shm_start_ok|]. split; [econstructor; [exact R1|exact E2]|]. split; [exact W|]. split; [rewrite N; left; reflexivity|].
  split; [discriminate|]. split.
  - exists ([] ++ [Begin 0 true; Try 0 9 false; OtherRemove (shm_name 9)]), [], s1. auto.
  - cbn [step]. rewrite W. split; [reflexivity|]. cbn [names]. rewrite N. vm_compute. intros [H|[]]. discriminate.
Qed.
Print Assumptions shm_removes_only_its_own_name_refuted.
