(** The claimed theorems about descriptor ownership (C37). *)
From Coq Require Import List ZArith Bool Lia Arith.
From Verif Require Import HandleModel HandleSpec HandleProof.
Import ListNotations.
Open Scope Z_scope.

Lemma kcnt_zero u k : kcnt u k = 0%nat -> forall n, lookup n k <> Some u.
Proof.
  intros H n L. apply lookup_In in L. induction k as [|[m v] k IH]; cbn in *; [tauto|].
  destruct L as [E|L]; [injection E as -> ->; rewrite Nat.eqb_refl in H; cbn in H; lia|]. apply IH; auto. lia.
Qed.
Lemma kcnt_pos u k : kcnt u k <> 0%nat -> exists n, In (n, u) k.
Proof.
  induction k as [|[m v] k IH]; cbn; [lia|]. intros H. destruct (Nat.eqb_spec v u) as [->|N]; [eauto|].
  cbn in H. destruct (IH H) as [n X]. eauto.
Qed.
Lemma kcnt_same u k n m : (kcnt u k <= 1)%nat -> In (n, u) k -> In (m, u) k -> n = m.
Proof.
  induction k as [|[x v] k IH]; cbn; [tauto|]. intros H A B.
  assert (Z : forall y, In (y, u) k -> kcnt u k <> 0%nat).
  { intros y Y E. clear -Y E. induction k as [|[z w] k IH]; cbn in *; [tauto|].
    destruct Y as [Y|Y]; [injection Y as -> ->; rewrite Nat.eqb_refl in E; cbn in E; lia|]. apply IH; auto. lia. }
  destruct A as [A|A], B as [B|B].
  - congruence.
  - injection A as -> ->. rewrite Nat.eqb_refl in H. cbn in H. specialize (Z m B). lia.
  - injection B as -> ->. rewrite Nat.eqb_refl in H. cbn in H. specialize (Z n A). lia.
  - apply IH; auto. lia.
Qed.
Lemma filter_ocnt s u n l : (forall m, refers s u m = true <-> m = n) ->
  length (filter (fun o => match o with Some n => refers s u n | None => false end) l) = ocnt n l.
Proof.
  intros H. induction l as [|[m|] l IH]; cbn; auto. specialize (H m).
  destruct (refers s u m), (Z.eqb_spec m n); cbn; rewrite IH; auto; intuition congruence.
Qed.
Lemma filter_hcnt s u n l : (forall m, refers s u m = true <-> m = n) ->
  length (filter (refers s u) l) = hcnt n l.
Proof.
  intros H. induction l as [|m l IH]; cbn; auto. specialize (H m).
  destruct (refers s u m), (Z.eqb_spec m n); cbn; rewrite IH; auto; intuition congruence.
Qed.
Lemma filter_none (A : Type) (f : A -> bool) l : (forall x, f x = false) -> length (filter f l) = 0%nat.
Proof. intros H. induction l as [|x l IH]; cbn; auto. rewrite H. auto. Qed.

(** C37. In any program, every descriptor ever opened is at every moment in
    exactly one place: closed (once), owned by one live Handle, or in the
    program's own hands. *)
Theorem descriptor_in_one_place debug es s u :
  runs debug es s -> disciplined es -> (u < next s)%nat ->
  (times_closed s u + handles_owning s u + raw_holding es s u = 1)%nat.
Proof.
  intros R D L. destruct (runs_Inv _ _ _ R D) as [I _]. pose proof (i_ids _ _ I u) as C.
  apply Nat.ltb_lt in L. rewrite L in C. cbn [b2n] in C. change (closes s u) with (times_closed s u) in C.
  destruct (Nat.eq_dec (kcnt u (kern s)) 0) as [Z|Z].
  - assert (F : forall m, refers s u m = false).
    { intros m. unfold refers. destruct (lookup m (kern s)) as [v|] eqn:E; auto. destruct (Nat.eqb_spec v u) as [->|]; auto.
      exfalso. eapply kcnt_zero; eauto. }
    unfold handles_owning, raw_holding. rewrite !filter_none; [lia|auto|]. intros [m|]; auto.
  - destruct (kcnt_pos _ _ Z) as [n N].
    assert (F : forall m, refers s u m = true <-> m = n).
    { intros m. unfold refers. split.
      - destruct (lookup m (kern s)) as [v|] eqn:E; [|discriminate]. intros X. apply Nat.eqb_eq in X. subst v.
        apply lookup_In in E. eapply kcnt_same; eauto. lia.
      - intros ->. rewrite (lookup_nodup n u) by (auto; apply I). apply Nat.eqb_refl. }
    unfold handles_owning, raw_holding. rewrite (filter_ocnt s u n _ F), (filter_hcnt s u n _ F).
    pose proof (i_one _ _ I n (i_pos _ _ I n u N)) as O. unfold isopen in O.
    rewrite (lookup_nodup n u) in O by (auto; apply I). lia.
Qed.

(** C37. So when every Handle has been destroyed and the program holds nothing
    itself, every descriptor has been closed exactly once. *)
Theorem no_descriptor_leaks debug es s u :
  runs debug es s -> disciplined es -> (u < next s)%nat ->
  (forall i, fd s i = None) -> held es = [] -> times_closed s u = 1%nat.
Proof.
  intros R D L A H. pose proof (descriptor_in_one_place _ _ _ _ R D L) as E.
  unfold raw_holding in E. rewrite H in E. cbn in E.
  assert (Z : handles_owning s u = 0%nat); [|lia].
  unfold handles_owning. unfold fd in A. clear -A. induction (objs s) as [|o l IH]; auto. pose proof (A 0%nat) as A0. cbn in A0. subst o. cbn.
  apply IH. intros i. apply (A (S i)).
Qed.

(** C37. Every close names a descriptor that is open, so none is closed twice or
    by mistake. *)
Theorem every_close_succeeds debug es s w n u :
  runs debug es s -> disciplined es -> In (TClose w n u) (trace s) -> u <> None.
Proof. intros R D H. destruct (runs_Inv _ _ _ R D) as [I _]. eapply i_valid; eauto. Qed.

Lemma ocnt_two n i j l : nth i l None = Some n -> nth j l None = Some n -> i <> j -> (2 <= ocnt n l)%nat.
Proof.
  revert i j. induction l as [|o l IH]; intros [|i] [|j] A B N; cbn in *; try discriminate; try congruence.
  - subst o. cbn. rewrite Z.eqb_refl. pose proof (ocnt_ge n j l B). cbn. lia.
  - subst o. cbn. rewrite Z.eqb_refl. pose proof (ocnt_ge n i l A). cbn. lia.
  - specialize (IH i j A B ltac:(lia)). lia.
Qed.
(** C37. Two live Handles never own the same descriptor, a Handle's descriptor
    is open, and the program does not also hold it. *)
Theorem handle_owns_alone debug es s i n :
  runs debug es s -> disciplined es -> fd s i = Some n -> 0 <= n ->
  lookup n (kern s) <> None /\ ~ In n (held es) /\ (forall j, fd s j = Some n -> j = i).
Proof.
  intros R D F P. destruct (runs_Inv _ _ _ R D) as [I _]. pose proof (i_one _ _ I n P) as O.
  pose proof (owned_open _ _ _ _ I F P) as Q. unfold isopen in O. destruct (lookup n (kern s)); [|congruence].
  split; [auto|split].
  - intros X. apply hcnt_In in X. unfold fd in F. apply ocnt_ge in F. lia.
  - intros j J. destruct (Nat.eq_dec j i) as [|NE]; auto. unfold fd in *. pose proof (ocnt_two n j i _ J F NE). lia.
Qed.

(** C37. The debug assertion in is_valid never fails. *)
Theorem validity_assertion_holds debug es s o :
  runs debug es s -> disciplined es -> ~ In (o, RAbort) es.
Proof. intros R D. apply (runs_Inv _ _ _ R D). Qed.

(** C37. A successful operation changes the kernel's table only by closing: the
    overwritten or destroyed Handle's own descriptor, and nothing else. *)
Theorem closes_only_own debug es s o s' r :
  runs debug es s -> disciplined es -> possible o s -> owns_argument (held es) o -> step debug o s = (s', r) ->
  forall w n u, trace s' = trace s ++ [TClose w n u] ->
    match o with
    | RawClose m => w = None /\ n = m
    | MoveAssign i _ | AssignRaw i _ | Destroy i => w = Some i /\ fd s i = Some n /\ 0 <= n
    | _ => False
    end.
Proof.
  intros R D P A E w n u T. destruct (runs_Inv _ _ _ R D) as [I _].
  assert (NO : forall x, trace s = trace s ++ [x] -> False).
  { intros x X. apply (f_equal (@length _)) in X. rewrite app_length in X. cbn in X. lia. }
  assert (RS : forall i m new s1, fd s i = Some m -> reset debug i m new s = Some s1 ->
            trace s1 = trace s ++ [TClose w n u] -> w = Some i /\ Some m = Some n /\ 0 <= n).
  { intros i m new s1 F X Y. unfold reset in X. rewrite (is_valid_ok debug _ s i m I F) in X. injection X as <-.
    destruct (Z.leb_spec 0 m); cbn in Y; [|exfalso; eapply NO; exact Y].
    apply app_inv_head in Y. injection Y as <- <- _. auto. }
  destruct o as [m|m| |m|j|i j|i m|i|i|i]; cbn in E, P.
  - injection E as <- <-. cbn in T. eapply NO; exact T.
  - injection E as <- <-. cbn in T. apply app_inv_head in T. injection T as <- <- _. auto.
  - injection E as <- <-. eapply NO; exact T.
  - injection E as <- <-. eapply NO; exact T.
  - destruct (fd s j); injection E as <- <-; cbn in T; eapply NO; exact T.
  - destruct P as [P1 P2]. unfold live in *. destruct (fd s i) as [m|] eqn:Fi; [|congruence].
    destruct (fd s j) as [m2|] eqn:Fj; [|congruence].
    destruct (reset debug i m m2 s) as [s1|] eqn:E1; injection E as <- <-; [|exfalso; eapply NO; exact T].
    eapply RS; eauto.
  - unfold live in *. destruct (fd s i) as [m2|] eqn:Fi; [|congruence].
    destruct (reset debug i m2 m s) as [s1|] eqn:E1; injection E as <- <-; [|exfalso; eapply NO; exact T].
    eapply RS; eauto.
  - destruct (fd s i); injection E as <- <-; cbn in T; eapply NO; exact T.
  - destruct (fd s i) as [m|]; [destruct (is_valid debug m s)|]; injection E as <- <-; eapply NO; exact T.
  - unfold live in *. destruct (fd s i) as [m2|] eqn:Fi; [|congruence].
    destruct (reset debug i m2 (-1) s) as [s1|] eqn:E1; injection E as <- <-; [|exfalso; eapply NO; exact T].
    eapply RS; eauto.
Qed.

(** C37. What the program sees: a moved-from Handle is empty, the destination
    has the descriptor. *)
Theorem move_transfers debug s i j n m s' r :
  i <> j -> fd s i = Some n -> fd s j = Some m -> step debug (MoveAssign i j) s = (s', r) -> r <> RAbort ->
  fd s' i = Some m /\ fd s' j = Some (-1).
Proof.
  intros N Fi Fj E A. cbn in E. rewrite Fi, Fj in E. unfold reset in E.
  destruct (is_valid debug n s) as [b|]; [|injection E as _ <-; congruence]. injection E as <- _.
  pose proof (live_lt _ _ _ Fi) as Li. pose proof (live_lt _ _ _ Fj) as Lj.
  apply Nat.ltb_lt in Li. apply Nat.ltb_lt in Lj.
  unfold fd, put. destruct b; cbn; rewrite !upd_nth, !upd_length, Li, Lj, Nat.eqb_refl, !andb_true_r;
    rewrite Nat.eqb_refl; destruct (Nat.eqb_spec j i); try congruence; auto.
Qed.
(** ... and a construction by moving likewise makes a new Handle with it. *)
Theorem move_construct_transfers debug s j m s' r :
  fd s j = Some m -> step debug (MoveCtor j) s = (s', r) ->
  fd s' (length (objs s)) = Some m /\ fd s' j = Some (-1) /\ kern s' = kern s /\ trace s' = trace s.
Proof.
  intros F E. cbn in E. rewrite F in E. injection E as <- <-. pose proof (live_lt _ _ _ F) as L. unfold fd. cbn. repeat split.
  - rewrite app_nth2; rewrite upd_length; auto. rewrite Nat.sub_diag. reflexivity.
  - rewrite app_nth1 by (rewrite upd_length; auto). rewrite upd_nth, Nat.eqb_refl. apply Nat.ltb_lt in L. rewrite L. reflexivity.
Qed.
(** C37, limit. Assigning a Handle to itself by move closes its descriptor and
    leaves it empty, rather than having no effect. *)
Theorem self_move_closes debug es s i n u :
  runs debug es s -> disciplined es -> fd s i = Some n -> 0 <= n -> lookup n (kern s) = Some u ->
  exists s', step debug (MoveAssign i i) s = (s', RDone) /\ fd s' i = Some (-1)
    /\ lookup n (kern s') = None /\ trace s' = trace s ++ [TClose (Some i) n (Some u)].
Proof.
  intros R D F P K. destruct (runs_Inv _ _ _ R D) as [I _]. cbn. rewrite F. unfold reset.
  rewrite (is_valid_ok debug _ s i n I F). destruct (Z.leb_spec 0 n); [|lia].
  pose proof (live_lt _ _ _ F) as L. apply Nat.ltb_lt in L. eexists. split; [reflexivity|]. cbn. repeat split.
  - unfold fd. cbn. rewrite upd_nth, upd_length, Nat.eqb_refl, L. reflexivity.
  - rewrite lookup_drop by apply I. rewrite Z.eqb_refl. reflexivity.
  - rewrite K. reflexivity.
Qed.
(** Running a list of operations forwards, for the examples. *)
Fixpoint go (d : bool) (os : list op) (s : state) : list (op * result) * state :=
  match os with
  | [] => ([], s)
  | o :: r => let (s1, x) := step d o s in let (es, s2) := go d r s1 in ((o, x) :: es, s2)
  end.
Fixpoint poss (d : bool) (os : list op) (s : state) : Prop :=
  match os with [] => True | o :: r => possible o s /\ poss d r (fst (step d o s)) end.
Lemma go_runs d os es s : runs d es s -> poss d os s -> runs d (es ++ fst (go d os s)) (snd (go d os s)).
Proof.
  revert es s. induction os as [|o os IH]; intros es s R P; cbn; [rewrite app_nil_r; auto|].
  destruct P as [P Q]. destruct (step d o s) as [s1 x] eqn:E. cbn in Q.
  specialize (IH (es ++ [(o, x)]) s1 (runs_snoc _ _ _ _ _ _ R P E) Q).
  destruct (go d os s1). cbn in *. rewrite <- app_assoc in IH. exact IH.
Qed.
(** C37, limit. Wrapping the same raw number twice, which the type does not
    prevent, closes a descriptor that another live Handle owns. *)
Theorem double_wrap_safe_refuted :
  exists es s, runs false es s /\ es = [(Open 4, RNum 4); (Construct 4, RDone); (Construct 4, RDone); (Destroy 0, RDone);
                 (Open 4, RNum 4); (Construct 4, RDone); (Destroy 1, RDone)]
    /\ fd s 2 = Some 4 /\ lookup 4 (kern s) = None /\ times_closed s 1 = 1%nat.
Proof.
  set (os := [Open 4; Construct 4; Construct 4; Destroy 0; Open 4; Construct 4; Destroy 1]).
  exists (fst (go false os init)), (snd (go false os init)). split; [|repeat split].
  apply (go_runs false os [] init (runs_0 false)). cbn. unfold live, fd. cbn. repeat split; try lia; discriminate.
Qed.

(** A concrete disciplined program: a number is reused after a close, moved,
    taken out again and wrapped anew. *)
Definition ex_program : list (op * result) :=
  [(Open 3, RNum 3); (Construct 3, RDone); (Default, RDone); (MoveAssign 1 0, RDone); (Destroy 0, RDone);
   (Open 5, RNum 5); (AssignRaw 1 5, RDone); (Open 3, RNum 3); (Take 1, RNum 5); (IsValid 1, RBool false);
   (RawClose 5, RDone); (Construct 3, RDone); (MoveCtor 2, RDone)].
Example handle_ex : exists s, runs true ex_program s /\ disciplined ex_program /\ fd s 3 = Some 3
  /\ trace s = [TClose (Some 1%nat) 3 (Some 0%nat); TClose None 5 (Some 1%nat)] /\ next s = 3%nat.
Proof.
  exists (snd (go true (map fst ex_program) init)). split; [|split].
  - apply (go_runs true (map fst ex_program) [] init (runs_0 true)). cbn. unfold live, fd. cbn. repeat split; try lia; discriminate.
  - intros a e b E. unfold ex_program in E.
    repeat (destruct a as [|? a]; cbn in E; injection E; clear E; intros E; intros; subst; 
      [cbn; unfold numbers; cbn; tauto|]). destruct a; discriminate.
  - repeat split.
Qed.

Print Assumptions descriptor_in_one_place.
Print Assumptions no_descriptor_leaks.
Print Assumptions every_close_succeeds.
Print Assumptions handle_owns_alone.
Print Assumptions validity_assertion_holds.
Print Assumptions closes_only_own.
Print Assumptions move_transfers.
Print Assumptions move_construct_transfers.
Print Assumptions self_move_closes.
Print Assumptions double_wrap_safe_refuted.

(** What the assertion is worth: if the program closed a Handle's descriptor
    behind its back, destroying or overwriting the Handle ends a debug build
    before anything is closed; a release build closes a number that is not open. *)
Theorem stale_handle_caught s i n :
  fd s i = Some n -> 0 <= n -> lookup n (kern s) = None ->
  (exists s', step true (Destroy i) s = (s', RAbort) /\ trace s' = trace s /\ kern s' = kern s) /\
  (forall m, exists s', step true (AssignRaw i m) s = (s', RAbort) /\ trace s' = trace s /\ kern s' = kern s) /\
  exists s', step false (Destroy i) s = (s', RDone) /\ trace s' = trace s ++ [TClose (Some i) n None].
Proof.
  intros F P L.
  assert (V : is_valid true n s = None) by (unfold is_valid; rewrite L; destruct (Z.ltb_spec n 0); [lia|reflexivity]).
  assert (V' : is_valid false n s = Some true) by (unfold is_valid; cbn; destruct (Z.leb_spec 0 n); [reflexivity|lia]).
  cbn [step]. rewrite F. unfold reset. rewrite V, V'.
  split; [|split].
  - eexists. split; [reflexivity|split; reflexivity].
  - intros m. eexists. split; [reflexivity|split; reflexivity].
  - eexists. split; [reflexivity|]. cbn. rewrite L. reflexivity.
Qed.
Print Assumptions stale_handle_caught.
Example stale_handle_ex : let s := snd (go false [Open 4; Construct 4; RawClose 4] init) in
  fd s 0 = Some 4 /\ lookup 4 (kern s) = None.
Proof. vm_compute. auto. Qed.
(** The kernel may hand out number 0. *)
Example zero_possible : possible (Open 0) init.
Proof. split; [lia|reflexivity]. Qed.
