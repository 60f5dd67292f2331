(** Theorems about the ownership of exported descriptors (property C75). *)
From Coq Require Import String Ascii List ZArith Bool Lia Permutation.
From Verif Require Import Base PathModel PathSpec FileTreeModel FileTreeSpec FileTreeProof FileTreeProps HandleModel OwnModel OwnSpec OwnProof.
Import ListNotations.
Local Open Scope Z_scope.

(** C75. Whatever the host opened is at every moment in exactly one place:
    closed (once), still in the host's hands, or exported, in which case some
    lookup answers with it.  For all paths, well-formed or not. *)
Theorem exported_in_one_place debug es s n u :
  runs debug es s -> In (Open n, Opened u) es ->
  (times_closed s u = 1%nat /\ ~ holds es u /\ ~ found s u) \/
  (times_closed s u = 0%nat /\ holds es u /\ ~ found s u) \/
  (times_closed s u = 0%nat /\ ~ holds es u /\ found s u).
Proof.
  intros R O. destruct (runs_Inv _ _ _ R) as (kt & km & kc & H). apply (one_place _ _ _ _ _ u H). now exists n.
Qed.

(** C75. No close fails, and no validity assertion does. *)
Theorem exported_closes_succeed debug es s :
  runs debug es s -> (forall n c, In (n, c) (closes s) -> c <> None) /\ forall o, ~ In (o, Aborted) es.
Proof.
  intros R. split.
  - destruct (runs_Inv _ _ _ R) as (kt & km & kc & H). intros n c I1. rewrite (i_closed _ _ _ _ _ H) in I1.
    apply in_map_iff in I1 as ([m u] & [= _ <-] & _). discriminate.
  - induction R as [|es s o s' r R IH Al E]; [intros o []|]. intros o' I1. apply in_snoc in I1 as [I1|I1]; [now apply IH in I1|].
    injection I1 as _ ->. destruct (runs_Inv _ _ _ R) as (kt & km & kc & H).
    destruct (Inv_step _ _ _ _ _ _ _ _ _ H Al E) as (a & b & c & d & _ & Ch).
    inversion Ch; subst; congruence.
Qed.

Lemma stands_sf es s kt km kc n w : Inv es s kt km kc -> (stands_for s n w <-> sf (kern s) n w).
Proof.
  intros H. unfold stands_for, sf. split; (intros [E|(u & E & I1)]; [left; auto|right; exists u; split; [auto|]]);
    apply (lookup_in _ _ _ (i_num _ _ _ _ _ H)); auto.
Qed.

(** C75. After any exports at well-formed paths, a lookup answers with a
    descriptor exactly where the abstract history has an export, and what it
    answers with is open and refers to the very thing that was exported there,
    not merely to the same number. *)
Theorem lookup_refers_to_export debug es s h :
  runs debug es s -> asked es h ->
  exists t v, tree s = Some t /\ history h v /\
    (forall a cs n tail, lookup_file t (mkPath a cs) = Some (n, tail) ->
       is_abs tail = false /\ exists w, stands_for s n w /\
       (comps tail = [] /\ v cs = AFile w \/ comps tail <> [] /\ exists q, cs = q ++ comps tail /\ v q = ADir w)) /\
    (forall a cs w, v cs = AFile w -> exists n, stands_for s n w /\ lookup_file t (mkPath a cs) = Some (n, empty_path)) /\
    (forall a q rest w, v q = ADir w -> rest <> [] ->
       exists n, stands_for s n w /\ lookup_file t (mkPath a (q ++ rest)) = Some (n, path_of_range rest)).
Proof.
  intros R A. destruct (asked_view _ _ _ A s R) as (t & v & Et & Hh & Rv). destruct (runs_Inv _ _ _ R) as (kt & km & kc & H).
  exists t, v. split; [exact Et|]. split; [exact Hh|]. split; [|split].
  - intros a cs n tail L. apply lookup_some in L as (Ha & [(Ht & E)|(Ht & q & Eq & E)]); (split; [exact Ha|]).
    + specialize (Rv cs). rewrite E in Rv. destruct (v cs) as [| |w|w] eqn:V; try contradiction.
      exists w. split; [apply (stands_sf _ _ _ _ _ _ _ H), Rv|]. left. auto.
    + specialize (Rv q). rewrite E in Rv. destruct (v q) as [| |w|w] eqn:V; try contradiction.
      exists w. split; [apply (stands_sf _ _ _ _ _ _ _ H), Rv|]. right. eauto.
  - intros a cs w V. specialize (Rv cs). rewrite V in Rv. destruct (node_at t cs) as [| |n|n] eqn:E; try contradiction.
    exists n. split; [apply (stands_sf _ _ _ _ _ _ _ H), Rv|]. apply lookup_some. split; [reflexivity|]. left. auto.
  - intros a q rest w V Hr. specialize (Rv q). rewrite V in Rv. destruct (node_at t q) as [| |n|n] eqn:E; try contradiction.
    exists n. split; [apply (stands_sf _ _ _ _ _ _ _ H), Rv|]. apply lookup_some. split; [reflexivity|]. right.
    split; [exact Hr|]. exists q. auto.
Qed.

(** C75. What an add closes is exactly what could be found before it and cannot
    be found after it, and what it adds is found. *)
Theorem add_closes_what_it_hides debug es s p file who s' ok :
  runs debug es s -> allowed es s (Add p file who) -> step debug (Add p file who) s = (s', Answer ok) ->
  exists new, closes s' = closes s ++ map (fun x => (fst x, Some (snd x))) new /\
    (forall u, In u (map snd new) <-> found s u /\ ~ found s' u) /\
    (ok = true -> forall u, who = Some u -> found s' u).
Proof.
  intros R Al E. destruct (runs_Inv _ _ _ R) as (kt & km & kc & H).
  destruct (Inv_step _ _ _ _ _ _ _ _ _ H Al E) as (kt' & km' & kc' & kd & H' & Ch).
  inversion Ch as [? ? ? Nab Nan Et' Ec' Ik Eo|? ? ? t t' dead ? ? ? Et Et' O F C P| |]; subst; [now destruct (Nan ok)|].
  destruct Al as (_ & _ & Aw).
  assert (Fd : ok = true -> forall u, who = Some u -> found s' u).
  { intros -> u ->. destruct (number_held _ _ _ _ _ u H (Aw u eq_refl)) as (n & km1 & En & _ & Hn & Im).
    cbn zeta in O. rewrite En in O.
    assert (I1 : In n (tree_fds t')) by (eapply own_loop_has; [exact O|]; destruct file; left; reflexivity).
    pose proof I1 as I2. apply (found_tree t' n (i_wf _ _ _ _ _ H' _ Et')) in I2 as (q & tail & L).
    exists t', q, n, tail. repeat split; auto.
    assert (I3 : In n (map fst kt')).
    { rewrite (i_tree _ _ _ _ _ H'), Et'. apply in_pos. auto. }
    apply in_map_iff in I3 as ([m w] & Em & I3). cbn in Em. subst m.
    assert (I4 : In (n, w) (kern s')) by (rewrite (i_split _ _ _ _ _ H'); apply in_or_app; auto).
    assert (w = u).
    { eapply nodup_fst; [apply (i_num _ _ _ _ _ H)| |exact Im]. rewrite P. apply in_or_app. auto. }
    subst w. apply lookup_in; [apply H'|exact I4]. }
  exists kd. split; [exact C|]. split; [|exact Fd]. intros u.
  apply (gone_hidden es s kt km kc (Add p file who) s' (Answer ok) kt' km' kc' kd u H H' P C).
  - intros w Hw. destruct ok, who as [x|]; try (apply holds_same in Hw; [exact Hw|congruence..]). now apply holds_add in Hw.
  - intros w Hw Nw. destruct ok.
    + destruct who as [x|]; [|exfalso; apply Nw, holds_same; auto; congruence].
      rewrite holds_add in Nw. destruct (Nat.eq_dec w x) as [->|D]; [auto|]. exfalso. auto.
    + exfalso. apply Nw, holds_same; auto; congruence.
Qed.

(** C75. An add that is refused or throws changes nothing at all: the host keeps
    its Handle. *)
Theorem refused_add_changes_nothing debug es s p file who s' r :
  runs debug es s -> allowed es s (Add p file who) -> step debug (Add p file who) s = (s', r) -> r <> Answer true ->
  s' = s /\ forall u, holds (es ++ [(Add p file who, r)]) u <-> holds es u.
Proof.
  intros R Al E Nr. split; [|intros u; apply holds_same; congruence].
  cbn [step] in E. destruct (tree s) as [t|] eqn:Et; [|congruence].
  destruct (own_handle t p _) as [[[ok t'] dead]| | | |] eqn:O; try congruence.
  destruct (destroy debug dead (kern s) (closes s)) as [[k c]|] eqn:D; injection E as <- <-; [|reflexivity].
  destruct ok; [congruence|]. apply own_loop_refused in O as [-> ->]. cbn in D. injection D as <- <-.
  destruct s; cbn in *; congruence.
Qed.

(** C75. Destroying the tree closes exactly what could be found in it. *)
Theorem drop_closes_the_exports debug es s s' r :
  runs debug es s -> allowed es s Drop -> step debug Drop s = (s', r) ->
  r = Done /\ (forall u, ~ found s' u) /\
  exists new, closes s' = closes s ++ map (fun x => (fst x, Some (snd x))) new /\
    forall u, In u (map snd new) <-> found s u.
Proof.
  intros R Al E. destruct (runs_Inv _ _ _ R) as (kt & km & kc & H).
  destruct (Inv_step _ _ _ _ _ _ _ _ _ H Al E) as (kt' & km' & kc' & kd & H' & Ch).
  assert (Et : tree s' = None /\ r = Done).
  { cbn [step] in E. cbn in Al. destruct (tree s) as [t|] eqn:Et; [|congruence].
    inversion Ch as [? ? ? Nab Nan Et' Ec' Ik Eo| | |? ? ? Et0 Et' F C P]; subst; [|auto].
    destruct (destroy debug (tree_fds t) (kern s) (closes s)) as [[k c]|]; injection E as <- <-; [auto|congruence]. }
  destruct Et as [Et ->].
  assert (Nf : forall u, ~ found s' u) by (intros u (t & ? & ? & ? & X & _); congruence).
  split; [reflexivity|]. split; [exact Nf|].
  inversion Ch as [? ? ? Nab Nan Et' Ec' Ik Eo| | |t ? ? Et0 Et' F C P]; subst; [cbn in Al; congruence|].
  exists kd. split; [exact C|]. intros u.
  rewrite (gone_hidden es s kt km kc Drop s' Done kt' km' kc' kd u H H' P C).
  - split; [tauto|]. auto.
  - intros w Hw. apply holds_same in Hw; [exact Hw|congruence..].
  - intros w Hw Nw. exfalso. apply Nw, holds_same; auto; congruence.
Qed.

(** C75. So when the tree is gone and the host has nothing left in its hands,
    everything it ever opened has been closed exactly once. *)
Theorem exports_never_leak debug es s n u :
  runs debug es s -> tree s = None -> (forall w, ~ holds es w) -> In (Open n, Opened u) es -> times_closed s u = 1%nat.
Proof.
  intros R Et Nh O. destruct (exported_in_one_place _ _ _ _ _ R O) as [(A & _)|[(_ & B & _)|(_ & _ & C)]]; [exact A|now apply Nh in B|].
  destruct C as (t & ? & ? & ? & X & _). congruence.
Qed.

(** A program that meets the hypotheses: a file exported at /a is replaced by a
    directory /a that has the file b; the kernel then reuses the number 3; an add
    below an exported directory is refused. *)
Definition demo_own : list op :=
  [Open 3; Add (tx "/a") true (Some 0%nat); Open 4; Add (tx "/a/b") true (Some 1%nat); Open 3;
   Add (tx "/d") false (Some 2%nat); Open 5; Add (tx "/d/e") true (Some 3%nat); Close 3].
Fixpoint run_ops (s : state) (os : list op) : state * list (op * result) :=
  match os with
  | [] => (s, [])
  | o :: r => let x := step true o s in let y := run_ops (fst x) r in (fst y, (o, snd x) :: snd y)
  end.
Example demo_own_result :
  run_ops init demo_own =
  (St (Some [(tx "a", ETree [(tx "b", EFile 4)]); (tx "d", EDirH 3)]) [(4, 1%nat); (3, 2%nat)] 4 [(3, Some 0%nat); (5, Some 3%nat)],
   [(Open 3, Opened 0); (Add (tx "/a") true (Some 0%nat), Answer true); (Open 4, Opened 1);
    (Add (tx "/a/b") true (Some 1%nat), Answer true); (Open 3, Opened 2); (Add (tx "/d") false (Some 2%nat), Answer true);
    (Open 5, Opened 3); (Add (tx "/d/e") true (Some 3%nat), Answer false); (Close 3, Done)]).
Proof. vm_compute. reflexivity. Qed.

(** The discipline, decided on a list of events. *)
Definition holdsb (es : list (op * result)) (u : nat) : bool :=
  existsb (fun x => match x with (Open _, Opened w) => Nat.eqb w u | _ => false end) es &&
  negb (existsb (fun x => match x with (Close w, Done) => Nat.eqb w u | (Add _ _ (Some w), Answer true) => Nat.eqb w u | _ => false end) es).
Lemma holdsb_ok es u : holdsb es u = true -> holds es u.
Proof.
  unfold holdsb. rewrite andb_true_iff, negb_true_iff. intros [A B]. apply existsb_exists in A as ([o r] & I1 & A).
  destruct o; try discriminate. destruct r; try discriminate. apply Nat.eqb_eq in A. subst. split; [eauto|].
  split; [intros X|intros p f X]; (enough (existsb (fun x : op * result => match x with (Close w, Done) => Nat.eqb w u
     | (Add _ _ (Some w), Answer true) => Nat.eqb w u | _ => false end) es = true) by congruence);
    apply existsb_exists; eexists; (split; [exact X|]); cbn; apply Nat.eqb_refl.
Qed.
Definition allowedb (es : list (op * result)) (s : state) (o : op) : bool :=
  match o with
  | Open n => (0 <=? n) && match lookup n (kern s) with None => true | _ => false end
  | Add p _ who => match tree s with None => false | _ => true end && (zlen p <? npos) &&
                   match who with Some u => holdsb es u | None => true end
  | Close u => holdsb es u
  | Drop => match tree s with None => false | _ => true end
  end.
Lemma allowedb_ok es s o : allowedb es s o = true -> allowed es s o.
Proof.
  destruct o; cbn -[npos]; rewrite ?andb_true_iff.
  - intros [A B]. apply Z.leb_le in A. destruct (lookup n (kern s)); [discriminate|auto].
  - intros [[A B] C]. apply Z.ltb_lt in B. destruct (tree s); [|discriminate]. split; [discriminate|split; [exact B|]].
    intros u ->. now apply holdsb_ok.
  - apply holdsb_ok.
  - destruct (tree s); [discriminate|discriminate].
Qed.
Fixpoint okb (es : list (op * result)) (s : state) (os : list op) : bool :=
  match os with
  | [] => true
  | o :: r => allowedb es s o && okb (es ++ [(o, snd (step true o s))]) (fst (step true o s)) r
  end.
Lemma okb_runs os : forall es s, runs true es s -> okb es s os = true -> runs true (es ++ snd (run_ops s os)) (fst (run_ops s os)).
Proof.
  induction os as [|o os IH]; intros es s R E; cbn [run_ops fst snd]; [now rewrite app_nil_r|].
  cbn [okb] in E. apply andb_true_iff in E as [A B]. specialize (IH _ _ (runs_snoc true es s o _ _ R (allowedb_ok _ _ _ A) (surjective_pairing _)) B).
  rewrite <- app_assoc in IH. exact IH.
Qed.
Example demo_own_runs : runs true (snd (run_ops init demo_own)) (fst (run_ops init demo_own)).
Proof. apply (okb_runs demo_own [] init (runs_0 true)). vm_compute. reflexivity. Qed.
Example demo_own_asked : exists h, asked (snd (run_ops init demo_own)) h /\ length h = 4%nat.
Proof.
  rewrite demo_own_result. cbn [snd].
  assert (G : forall q, (forall x, In x q -> no_slash x) -> q <> [] -> good_names q) by (intros q A B; split; [exact B|now apply Forall_forall]).
  exists [([tx "a"], export true (Some 0%nat), true); ([tx "a"; tx "b"], export true (Some 1%nat), true);
          ([tx "d"], export false (Some 2%nat), true); ([tx "d"; tx "e"], export true (Some 3%nat), false)].
  split; [|reflexivity].
  change (asked (((((((((([] ++ [(Open 3, Opened 0)]) ++ [(Add (raw_path [tx "a"]) true (Some 0%nat), Answer true)]) ++ [(Open 4, Opened 1)])
    ++ [(Add (raw_path [tx "a"; tx "b"]) true (Some 1%nat), Answer true)]) ++ [(Open 3, Opened 2)])
    ++ [(Add (raw_path [tx "d"]) false (Some 2%nat), Answer true)]) ++ [(Open 5, Opened 3)])
    ++ [(Add (raw_path [tx "d"; tx "e"]) true (Some 3%nat), Answer false)]) ++ [(Close 3, Done)]))
   (((([] ++ [([tx "a"], export true (Some 0%nat), true)]) ++ [([tx "a"; tx "b"], export true (Some 1%nat), true)])
    ++ [([tx "d"], export false (Some 2%nat), true)]) ++ [([tx "d"; tx "e"], export true (Some 3%nat), false)])).
  repeat (apply asked_close || apply asked_open || apply asked_add || apply asked_0);
    (apply G; [|discriminate]); intros x I1; cbn [In] in I1;
    repeat (destruct I1 as [<-|I1]; [apply no_slash_dec; reflexivity|]); destruct I1.
Qed.

(** C75 (limit): a program that exports what it no longer holds, by making a second
    Handle from the number.  In debug builds the end of the tree aborts, in release
    builds it closes the number twice; and if the number was reused in between, both
    builds close a descriptor that the program still holds and never exported. *)
Fixpoint play (debug : bool) (s : state) (os : list op) : state * list result :=
  match os with
  | [] => (s, [])
  | o :: r => let x := step debug o s in let y := play debug (fst x) r in (fst y, snd x :: snd y)
  end.
Theorem exported_twice_refuted : forall n, 0 <= n ->
  let twice := [Open n; Add (tx "/a") true (Some 0%nat); Add (tx "/b") true (Some 0%nat)] in
  snd (play true init (twice ++ [Drop])) = [Opened 0; Answer true; Answer true; Aborted] /\
  (snd (play false init (twice ++ [Drop])) = [Opened 0; Answer true; Answer true; Done] /\
   closes (fst (play false init (twice ++ [Drop]))) = [(n, Some 0%nat); (n, None)]) /\
  forall debug, let os := twice ++ [Add (tx "/a") true None; Open n; Drop] in
    snd (play debug init os) = [Opened 0; Answer true; Answer true; Answer true; Opened 1; Done] /\
    closes (fst (play debug init os)) = [(n, Some 0%nat); (n, Some 1%nat)].
Proof.
  intros n N twice. assert (L : n <? 0 = false) by (apply Z.ltb_ge; lia). assert (Q : n =? n = true) by apply Z.eqb_refl.
  assert (A1 : own_handle [] (tx "/a") (EFile n) = Ret (true, [(tx "a", EFile n)], [])) by (vm_compute; reflexivity).
  assert (A2 : own_handle [(tx "a", EFile n)] (tx "/b") (EFile n) = Ret (true, [(tx "a", EFile n); (tx "b", EFile n)], [])) by (vm_compute; reflexivity).
  assert (A3 : own_handle [(tx "a", EFile n); (tx "b", EFile n)] (tx "/a") (EFile (-1)) = Ret (true, [(tx "a", EFile (-1)); (tx "b", EFile n)], [n]))
    by (vm_compute; reflexivity).
  assert (Tw : forall debug, play debug init twice =
    (St (Some [(tx "a", EFile n); (tx "b", EFile n)]) [(n, 0%nat)] 1 [], [Opened 0; Answer true; Answer true])).
  { intros debug. unfold twice. cbn [play step init fst snd tree kern next closes app number Nat.eqb]. rewrite A1.
    cbn [destroy play step init fst snd tree kern next closes app number Nat.eqb]. rewrite A2.
    cbn [destroy fst snd]. reflexivity. }
  assert (Ap : forall debug os, play debug init (twice ++ os) = (fst (play debug (fst (play debug init twice)) os),
     snd (play debug init twice) ++ snd (play debug (fst (play debug init twice)) os))).
  { intros debug os. unfold twice. reflexivity. }
  split; [|split; [|intros debug os; unfold os]]; rewrite Ap, Tw;
    cbn [fst snd play step tree kern next closes tree_fds flat_map entry_fds app destroy lookup drop filter number Nat.eqb];
    rewrite ?A3; cbn [fst snd destroy]; rewrite ?L; cbn [lookup fst]; rewrite ?Q; cbn [drop filter fst]; rewrite ?Q; cbn; rewrite ?L, ?Q; cbn; rewrite ?L, ?Q; auto.
Qed.

Print Assumptions exported_in_one_place.
Print Assumptions exported_closes_succeed.
Print Assumptions lookup_refers_to_export.
Print Assumptions add_closes_what_it_hides.
Print Assumptions refused_add_changes_nothing.
Print Assumptions drop_closes_the_exports.
Print Assumptions exports_never_leak.
Print Assumptions exported_twice_refuted.
