(** Proofs about the descriptors that libraries use for themselves.  For UserModel
    they are descriptors that the program opens and keeps; so what is proved there
    carries over. *)
From Coq Require Import String Ascii List ZArith Lia Bool Permutation Arith.
From Verif Require Import Base PathModel FileTreeModel FileTreeSpec RegionModel RegionSpec DispatchModel DispatchProps HostCallsModel HostCallsSpec NetProps
  ChildCallsModel EffectsModel HandleModel OwnModel OwnSpec OwnProof OwnProps GateModel GateSpec GateProof GateProps LibsModel LibsSpec LibsProof LibsProps ParProof
  UserModel UserSpec UserProof UserProps LifeModel LifeSpec.
Import ListNotations.
Local Open Scope Z_scope.

(** ** What no event undoes *)
Section GROWS.
Variable debug : bool.
Definition grows (s s' : state) : Prop := tree s' = tree s /\ exists more, closes s' = closes s ++ more.
Lemma grows_refl s : grows s s.
Proof. split; [reflexivity|]. exists []. symmetry. apply app_nil_r. Qed.
Lemma grows_trans a b c : grows a b -> grows b c -> grows a c.
Proof. intros [A1 (m1 & A2)] [B1 (m2 & B2)]. split; [congruence|]. exists (m1 ++ m2). rewrite B2, A2, app_assoc. reflexivity. Qed.
Lemma asks_grows r o s s' e : asks debug r o s = Ret (s', e) -> grows s s'.
Proof.
  intros E. unfold asks in E. destruct o; try (injection E as <- _; apply grows_refl);
    try (destruct (0 <=? fst r); injection E as <- _; [split; [reflexivity|exists []; symmetry; apply app_nil_r]|apply grows_refl]).
  destruct (destroy debug _ _ _) as [[k c]|] eqn:D; [|discriminate]. injection E as <- _. apply destroy_incl in D as [_ (m & ->)]. split; [reflexivity|]. exists m. reflexivity.
Qed.
Lemma perform_grows k : forall ops before s s' es, perform debug k before ops s = Ret (s', es) -> grows s s'.
Proof.
  induction ops as [|o ops IH]; intros before s s' es E; cbn [perform] in E; [injection E as <- _; apply grows_refl|].
  destruct (asks _ _ _ _) as [[s1 e]| | | |] eqn:A; try discriminate. cbn [obind] in E.
  destruct (perform _ _ _ _ _) as [[s2 es2]| | | |] eqn:P; try discriminate. cbn [obind] in E. injection E as <- _.
  eapply grows_trans; [eapply asks_grows, A|eapply IH, P].
Qed.
Lemma act_grows h t np q : forall l before s s' es, act debug h t np q before l s = Ret (s', es) -> grows s s'.
Proof.
  induction l as [|a l IH]; intros before s s' es E; cbn [act] in E; [injection E as <- _; apply grows_refl|].
  match type of E with obind ?x _ = _ => destruct x as [[[s1 e1] b1]| | | |] eqn:X; try discriminate end. cbn [obind] in E.
  destruct (act _ _ _ _ _ _ _ _) as [[s2 es2]| | | |] eqn:P; try discriminate. cbn [obind] in E. injection E as <- _.
  eapply grows_trans; [|eapply IH, P]. clear P IH.
  destruct a as [z|tag bytes given|f|n f|]; cbn [obind] in X.
  - injection X as <- _ _. apply grows_refl.
  - destruct (run_builtin _ _ _ _ _ _ _ _ _ _ _ _) as [[r0 e]| | | |]; try discriminate. cbn [obind] in X.
    destruct (perform _ _ _ _ _) as [[s3 es3]| | | |] eqn:P; try discriminate. cbn [obind] in X. injection X as <- _ _. eapply perform_grows, P.
  - destruct (asks _ _ _ _) as [[s3 e]| | | |] eqn:A; try discriminate. cbn [obind] in X. injection X as <- _ _. eapply asks_grows, A.
  - injection X as <- _ _. apply grows_refl.
  - injection X as <- _ _. apply grows_refl.
Qed.
Lemma receive_grows q s : grows s (receive q s).
Proof. rewrite receive_is. split; [reflexivity|]. exists []. symmetry. apply app_nil_r. Qed.

Lemma ustep_grows heaps i o w w' r : ustep debug heaps i o w = (w', r) ->
  (exists more, closed (base w') = closed (base w) ++ more) /\
  (o <> UDo Drop -> forall j, trees (base w) j <> None -> trees (base w') j <> None) /\
  forall j, j <> i -> trees (base w') j = trees (base w) j.
Proof.
  assert (Same : (exists more, closed (base w) = closed (base w) ++ more) /\ (o <> UDo Drop -> forall j, trees (base w) j <> None -> trees (base w) j <> None) /\
    forall j, j <> i -> trees (base w) j = trees (base w) j) by (split; [exists []; symmetry; apply app_nil_r|auto]).
  assert (Put : forall s np d rn, grows (own (lib (base w) i)) s ->
    let w1 := User (after (base w) i (Gate s np)) d rn in
    (exists more, closed (base w1) = closed (base w) ++ more) /\ (o <> UDo Drop -> forall j, trees (base w) j <> None -> trees (base w1) j <> None) /\
    forall j, j <> i -> trees (base w1) j = trees (base w) j).
  { intros s np d rn [G1 G2] w1. split; [exact G2|]. cbn. split.
    - intros _ j N. unfold upd. destruct (Nat.eqb_spec j i) as [-> |]; [|exact N]. rewrite G1. exact N.
    - intros j D. apply upd_other, D. }
  intros E. destruct o as [o|no p|sz tk|q|n who|]; cbn [ustep] in E.
  - destruct (step debug o (own (lib (base w) i))) as [s ro] eqn:S. injection E as <- _. destruct (step_incl _ _ _ _ _ S) as [_ C].
    split; [exact C|]. cbn. split; [|intros j D; apply upd_other, D]. intros Nd j N. unfold upd. destruct (Nat.eqb_spec j i) as [-> |]; [|exact N].
    destruct o as [n|p file who|u|]; cbn [step] in S.
    + injection S as <- _. exact N.
    + change (tree (own (lib (base w) i))) with (trees (base w) i) in S. destruct (trees (base w) i) as [t|] eqn:T; [|congruence]. cbv zeta in S.
      assert (Ns : tree (own (lib (base w) i)) <> None) by (cbn; rewrite T; discriminate).
      destruct (own_handle _ _ _) as [[[ok t'] dead]| | | |]; try (injection S as <- _; exact Ns).
      destruct (destroy _ _ _ _) as [[k c]|]; injection S as <- _; [discriminate|exact Ns].
    + destruct (destroy _ _ _ _) as [[k c]|]; injection S as <- _; exact N.
    + congruence.
  - injection E as <- _. apply Put, grows_refl.
  - destruct (register_callback _ _) as [n d]. injection E as <- _. exact Same.
  - destruct (tree (own (lib (base w) i))) as [t|] eqn:T; [|injection E as <- _; exact Same].
    match type of E with context [match ?x with Some _ => _ | None => _ end] => destruct x as [[[[tag bytes] given] later]|] end.
    + injection E as <- _. apply Put, receive_grows.
    + destruct (act _ _ _ _ _ _ _ _) as [[s es]| | | |] eqn:A; try (injection E as <- _; exact Same). injection E as <- _.
      apply Put. eapply grows_trans; [apply receive_grows|eapply act_grows, A].
  - destruct (running w i) as [|p rest]; [injection E as <- _; exact Same|]. cbv zeta in E.
    destruct (act _ _ _ _ _ _ _ _) as [[s es]| | | |] eqn:A; try (injection E as <- _; exact Same). injection E as <- _. apply Put. eapply act_grows, A.
  - destruct (running w i) as [|p rest]; [injection E as <- _; exact Same|].
    destruct (act _ _ _ _ _ _ _ _) as [[s es]| | | |] eqn:A; try (injection E as <- _; exact Same). injection E as <- _. apply Put. eapply act_grows, A.
Qed.
Lemma closings_more w w' u more : closed w' = closed w ++ more -> (closings w u <= closings w' u)%nat.
Proof.
  intros E. unfold closings, times_closed. change (closes (own (lib w' 0))) with (closed w'). change (closes (own (lib w 0))) with (closed w).
  rewrite E, filter_app, app_length. lia.
Qed.
End GROWS.

(** ** Histories *)
Lemma theirs_app a b : theirs (a ++ b) = theirs a ++ theirs b.
Proof. apply flat_map_app. Qed.
Lemma made_snoc j es x a b c d e : made j (es ++ [x]) a b c d e <-> made j es a b c d e \/ exists n1 n2 n3 n4 n5, x = (j, (LStart n1 n2 n3 n4 n5, LStarted a b c d e)).
Proof.
  unfold made. split.
  - intros (n1 & n2 & n3 & n4 & n5 & I1). apply in_snoc in I1 as [I1|I1]; [left|right]; exists n1, n2, n3, n4, n5; auto.
  - intros [H|H]; destruct H as (n1 & n2 & n3 & n4 & n5 & H); exists n1, n2, n3, n4, n5; apply in_snoc; auto.
Qed.
Lemma internal_snoc es x u : internal (es ++ [x]) u <-> internal es u \/ exists j n1 n2 n3 n4 n5 a b c d e, x = (j, (LStart n1 n2 n3 n4 n5, LStarted a b c d e)) /\ In u [a; b; c; d; e].
Proof.
  unfold internal. split.
  - intros (j & a & b & c & d & e & Hm & I1). apply made_snoc in Hm as [Hm|(n1 & n2 & n3 & n4 & n5 & Hm)].
    + left. exists j, a, b, c, d, e. auto.
    + right. exists j, n1, n2, n3, n4, n5, a, b, c, d, e. auto.
  - intros [(j & a & b & c & d & e & Hm & I1)|(j & n1 & n2 & n3 & n4 & n5 & a & b & c & d & e & Hm & I1)]; exists j, a, b, c, d, e; (split; [|exact I1]); apply made_snoc; [auto|].
    right. exists n1, n2, n3, n4, n5. exact Hm.
Qed.
(** All of them, in order. *)
Definition ids (es : lifehistory) : list nat :=
  flat_map (fun x => match snd x with (LStart _ _ _ _ _, LStarted a b c d e) => [a; b; c; d; e] | _ => [] end) es.
Lemma ids_app a b : ids (a ++ b) = ids a ++ ids b.
Proof. apply flat_map_app. Qed.
Lemma ids_internal es u : In u (ids es) <-> internal es u.
Proof.
  unfold ids. rewrite in_flat_map. split.
  - intros ([i [o r]] & I1 & I2). cbn [snd] in I2. destruct o as [| n1 n2 n3 n4 n5| |]; try destruct I2. destruct r as [|a b c d e| | | |]; try destruct I2.
    all: exists i, a, b, c, d, e; (split; [exists n1, n2, n3, n4, n5; exact I1|cbn [In]; auto]).
  - intros (i & a & b & c & d & e & (n1 & n2 & n3 & n4 & n5 & I1) & I2). eexists. split; [exact I1|]. exact I2.
Qed.

Lemma NoDup_app_r' {A} (a b : list A) : NoDup (a ++ b) -> NoDup b.
Proof. induction a as [|x a IH]; cbn [app]; intros N; [exact N|]. apply NoDup_cons_iff in N as [_ N]. exact (IH N). Qed.
Lemma nodup_twice {A} (a b : list A) x : NoDup (a ++ b) -> In x a -> In x b -> False.
Proof.
  induction a as [|y a IH]; cbn [app]; intros N X Y; [destruct X|]. apply NoDup_cons_iff in N as [N1 N2]. destruct X as [-> |X]; [|exact (IH N2 X Y)].
  apply N1, in_or_app. auto.
Qed.

Section INV.
Variables (debug : bool) (shm size hdr : nat -> Z).
Hypothesis M : forall i, mapping_ok (shm i) (size i) (hdr i).
Local Notation heaps := (fun i => library_heap (shm i) (size i) (hdr i)).
Local Notation uruns := (uruns debug heaps).
Local Notation ustep := (ustep debug heaps).

(** [ges]: a history of UserModel in which the program opens and closes what is the
    libraries' own. *)
Record finv (es : lifehistory) (w : life) (ges : uhistory) : Prop := {
  f_runs : uruns ges (process w);
  f_prog : forall j, in_progress j ges = in_progress j (theirs es);
  f_net : forall j, network j ges = network j (theirs es);
  f_reg : forall j, registered j ges = registered j (theirs es);
  f_sub : forall x, In x (theirs es) -> In x ges;
  f_only : forall x, In x (handled ges) -> In x (handled (theirs es)) \/ (exists n u, x = (Open n, Opened u)) \/ (exists u, x = (Close u, Done) /\ internal es u) \/ x = (Drop, Done);
  f_used : forall u, In (Close u, Done) (handled (theirs es)) \/ (exists p f, In (Add p f (Some u), Answer true) (handled (theirs es))) -> opened (handled (theirs es)) u;
  f_int : forall u, internal es u -> opened (handled ges) u /\ ~ opened (handled (theirs es)) u;
  f_ids : NoDup (ids es);
  f_made : forall i, sockets w i <> None \/ ranges w i <> None \/ unmade i es \/ dropped i es -> exists a b c d e, made i es a b c d e;
  f_once : forall i a b c d e a' b' c' d' e', made i es a b c d e -> made i es a' b' c' d' e' -> (a, b, c, d, e) = (a', b', c', d', e');
  f_tree : forall i, ~ unmade i es -> trees (base (process w)) i <> None;
  f_keep : forall i a b c d e, made i es a b c d e ->
    keeps ges a /\ keeps ges c /\ keeps ges e /\
    (ranges w i = Some b /\ ~ dropped i es /\ keeps ges b \/ ranges w i = None /\ dropped i es /\ ~ keeps ges b /\ closings (base (process w)) b = 1%nat) /\
    (sockets w i = Some d /\ ~ unmade i es /\ keeps ges d \/ sockets w i = None /\ unmade i es /\ ~ keeps ges d /\ closings (base (process w)) d = 1%nat) }.

Lemma finv_0 : finv [] new_life [].
Proof.
  constructor; try (intros; reflexivity); try solve [intros x []].
  - constructor.
  - intros u [[]|(p & f & [])].
  - intros u (i & a & b & c & d & e & (n1 & n2 & n3 & n4 & n5 & []) & _).
  - constructor.
  - intros i [H|[H|[[]|[]]]]; destruct (H eq_refl).
  - intros i a b c d e a' b' c' d' e' (n1 & n2 & n3 & n4 & n5 & []).
  - intros i _. discriminate.
  - intros i a b c d e (n1 & n2 & n3 & n4 & n5 & []).
Qed.

Lemma keeps_of es w ges u : finv es w ges -> keeps (theirs es) u -> keeps ges u.
Proof.
  intros V (O & Nc & Na). assert (Sub : forall x, In x (handled (theirs es)) -> In x (handled ges)).
  { intros x I1. unfold handled in *. apply in_flat_map in I1 as (e & I1 & I2). apply in_flat_map. exists e. split; [apply (f_sub _ _ _ V), I1|exact I2]. }
  assert (Ni : ~ internal es u) by (intros X; apply (f_int _ _ _ V) in X as [_ X]; exact (X O)).
  split; [destruct O as [n O]; exists n; apply Sub, O|]. split.
  - intros X. destruct (f_only _ _ _ V _ X) as [Y|[(n & v & Y)|[(v & Y & Z)|Y]]]; [exact (Nc Y)|discriminate| |discriminate]. injection Y as <-. exact (Ni Z).
  - intros p f X. destruct (f_only _ _ _ V _ X) as [Y|[(n & v & Y)|[(v & Y & Z)|Y]]]; [exact (Na _ _ Y)|discriminate|discriminate|discriminate].
Qed.
Lemma sub_handled es w ges x : finv es w ges -> In x (handled (theirs es)) -> In x (handled ges).
Proof.
  intros V I1. unfold handled in *. apply in_flat_map in I1 as (e & I1 & I2). apply in_flat_map. exists e. split; [apply (f_sub _ _ _ V), I1|exact I2].
Qed.
Lemma keeps_back es w ges u : finv es w ges -> opened (handled (theirs es)) u -> keeps ges u -> keeps (theirs es) u.
Proof.
  intros V O (_ & Nc & Na). split; [exact O|]. split.
  - intros X. apply Nc, (sub_handled _ _ _ _ V), X.
  - intros p f X. apply (Na p f), (sub_handled _ _ _ _ V), X.
Qed.

(** What a UserModel history guarantees about what is held. *)
Lemma held_facts ges u v : uruns ges u -> keeps ges v ->
  closings (base u) v = 0%nat /\ (forall j, ~ exported (base u) j v) /\ (exists n, lookup n (table (base u)) = Some v) /\ (v < fresh (base u))%nat.
Proof.
  intros R K. destruct (uruns_uinv debug shm size hdr M _ _ R) as [gg V]. pose proof (u_core _ _ _ _ V) as C.
  pose proof (c_holds _ _ _ _ _ C v K) as H. destruct (held_open debug gg (base u) v (c_linv _ _ _ _ _ C) H) as [A B].
  split; [exact A|]. split; [exact B|]. split; [exact (held_number debug gg (base u) v (c_linv _ _ _ _ _ C) H)|]. apply (core_opened _ _ _ _ _ _ C), K.
Qed.
Lemma opened_lt ges u v : uruns ges u -> opened (handled ges) v -> (v < fresh (base u))%nat.
Proof.
  intros R O. destruct (uruns_uinv debug shm size hdr M _ _ R) as [gg V]. apply (core_opened _ _ _ _ _ _ (u_core _ _ _ _ V) O).
Qed.
Lemma once_stays ges u ges' u' v more : uruns ges u -> uruns ges' u' -> closed (base u') = closed (base u) ++ more -> (v < fresh (base u'))%nat ->
  closings (base u) v = 1%nat -> closings (base u') v = 1%nat.
Proof.
  intros R R' E L X. pose proof (closings_more _ _ v _ E). destruct (uruns_uinv debug shm size hdr M _ _ R') as [gg V].
  destruct (at_most_once debug gg (base u') v (c_linv _ _ _ _ _ (u_core _ _ _ _ V)) L); lia.
Qed.
Lemma touched_lt ges u v : uruns ges u -> (exists r, In (Close v, r) (handled ges)) \/ (exists p f r, In (Add p f (Some v), r) (handled ges)) -> (v < fresh (base u))%nat.
Proof.
  intros R X. destruct (uruns_uinv debug shm size hdr M _ _ R) as [gg V]. pose proof (u_core _ _ _ _ V) as C.
  destruct X as [(r & X)|(p & f & r & X)]; apply (c_sub _ _ _ _ _ C) in X; [eapply (v_closing _ _ _ (c_linv _ _ _ _ _ C)); exact X|eapply (v_adding _ _ _ (c_linv _ _ _ _ _ C)); exact X].
Qed.

(** ** The program's events *)
Definition new_of (x : nat * (uop * uresult)) : list (op * OwnModel.result) := handled [x].
Lemma new_opened ges u i o u' r n v : uruns ges u -> uallowed ges u i o -> ustep i o u = (u', r) -> In (Open n, Opened v) (handled [(i, (o, r))]) -> (fresh (base u) <= v)%nat.
Proof.
  intros R Al E I1. unfold handled in I1. cbn [flat_map snd app] in I1. rewrite app_nil_r in I1. destruct o as [o|no p|sz tk|q|m who|].
  - cbn [UserModel.ustep] in E. destruct (step debug o (own (lib (base u) i))) as [s ro] eqn:S. injection E as _ <-. destruct I1 as [I1|[]]. injection I1 as -> ->.
    cbn [step] in S. injection S as _ <-. apply le_n.
  - destruct I1.
  - destruct I1.
  - destruct (uruns_uinv debug shm size hdr M _ _ R) as [gg V].
    destruct r as [| | | |tag bytes [g|] kept|]; try destruct I1. injection H as _ ->.
    destruct (handler_called_only debug shm size hdr M ges u i (USays q) u' _ _ _ _ _ R Al E eq_refl) as (q' & rq & fd & sz & tk & [= <-] & Qm & U & F & _).
    destruct (handler_called debug shm size hdr M ges u i q u' _ rq fd sz tk R Al E Qm U) as [Hc _]. destruct (Hc F) as [Er _]. injection Er as _ _ Er _.
    destruct tk; [|discriminate]. unfold received in Er. rewrite Qm in Er. destruct fd as [f|]; [|discriminate]. injection Er as ->. cbn. lia. destruct H.
  - destruct who as [v'|]; destruct I1; [discriminate|destruct H].
  - destruct I1.
Qed.

(** What the program touches, it held. *)
Lemma new_touched es u i o u' r v : uallowed es u i o -> ustep i o u = (u', r) ->
  In (Close v, Done) (handled [(i, (o, r))]) \/ (exists p f, In (Add p f (Some v), Answer true) (handled [(i, (o, r))])) -> keeps es v.
Proof.
  intros Al E X. unfold handled in X. cbn [flat_map snd app] in X. rewrite app_nil_r in X. destruct o as [o|no p|sz tk|q|m who|].
  - cbn [UserModel.ustep] in E. destruct (step debug o (own (lib (base u) i))) as [s ro] eqn:S. injection E as _ <-. destruct Al as [Al _].
    destruct X as [[X|[]]|(p & f & [X|[]])]; injection X as -> ->; cbn [allowed] in Al; [exact Al|]. destruct Al as (_ & _ & A). apply A. reflexivity.
  - destruct X as [[]|(p' & f & [])].
  - destruct X as [[]|(p' & f & [])].
  - destruct r as [| | | |tag bytes [g|] kept|]; destruct X as [X|(p' & f & X)]; try destruct X as [X|[]]; try discriminate; try destruct X.
  - destruct Al as [_ Al]. destruct who as [v'|]; [|destruct X as [[]|(p' & f & [])]]. destruct X as [[X|[]]|(p' & f & [X|[]])]; [|discriminate]. injection X as ->. apply Al. reflexivity.
  - destruct X as [[]|(p' & f & [])].
Qed.

Lemma allowed_more es w ges i o : finv es w ges -> lifeallowed es w i (LUser o) -> uallowed ges (process w) i o.
Proof.
  intros V [Al Re]. destruct o as [o|no p|sz tk|q|m who|].
  - destruct Al as [Al Id]. destruct o as [n|p file who|u|]; cbn [uallowed allowed] in *; try tauto.
    + destruct Al as (A1 & A2 & A3). split; [|exact Logic.I]. split; [exact A1|]. split; [exact A2|]. intros v Hv. apply (keeps_of es w ges v V), A3, Hv.
    + split; [|exact Logic.I]. apply (keeps_of es w ges u V), Al.
  - exact Al.
  - exact Al.
  - exact Al.
  - cbn [uallowed] in *. rewrite (f_prog _ _ _ V). destruct Al as [A B]. split; [exact A|]. intros u Hu. apply (keeps_of es w ges u V), B, Hu.
  - cbn [uallowed] in *. rewrite (f_prog _ _ _ V). exact Al.
Qed.

Lemma keeps_before ges x u : opened (handled ges) u -> keeps (ges ++ x) u -> keeps ges u.
Proof.
  intros O (_ & Nc & Na). rewrite handled_app in Nc, Na. split; [exact O|]. split.
  - intros X. apply Nc, in_or_app. auto.
  - intros p f X. apply (Na p f), in_or_app. auto.
Qed.
Lemma keeps_after ges x u : keeps ges u -> ~ In (Close u, Done) (handled x) -> (forall p f, ~ In (Add p f (Some u), Answer true) (handled x)) -> keeps (ges ++ x) u.
Proof.
  intros ((n & O) & Nc & Na) Xc Xa. unfold keeps. rewrite handled_app. split; [exists n; apply in_or_app; auto|]. split.
  - intros X. apply in_app_or in X as [X|X]; [exact (Nc X)|exact (Xc X)].
  - intros p f X. apply in_app_or in X as [X|X]; [exact (Na p f X)|exact (Xa p f X)].
Qed.
Lemma made_user j es i o r a b c d e : made j (es ++ [(i, (LUser o, r))]) a b c d e <-> made j es a b c d e.
Proof. rewrite made_snoc. split; [intros [H|(n1 & n2 & n3 & n4 & n5 & H)]; [exact H|discriminate]|auto]. Qed.

Lemma stacked_app j : forall a b, in_progress j (a ++ b) = fold_left (stacked j) b (in_progress j a).
Proof. intros a b. unfold in_progress. apply fold_left_app. Qed.

Lemma finv_user es w ges i o u' r : finv es w ges -> lifeallowed es w i (LUser o) -> ustep i o (process w) = (u', r) ->
  finv (es ++ [(i, (LUser o, LUsed r))]) (Life u' (sockets w) (ranges w)) (ges ++ [(i, (o, r))]).
Proof.
  intros V Al E. pose proof (allowed_more _ _ _ _ _ V Al) as Al'. pose proof (uruns_snoc _ _ _ _ _ _ _ _ (f_runs _ _ _ V) Al' E) as R'.
  destruct (ustep_grows _ _ _ _ _ _ _ E) as ((more & Cl) & Tr & _).
  assert (Th : theirs (es ++ [(i, (LUser o, LUsed r))]) = theirs es ++ [(i, (o, r))]) by (rewrite theirs_app; reflexivity).
  assert (In' : forall u, internal (es ++ [(i, (LUser o, LUsed r))]) u <-> internal es u).
  { intros u. rewrite internal_snoc. split; [intros [H|(j & n1 & n2 & n3 & n4 & n5 & a & b & c & d & e & H & _)]; [exact H|discriminate]|auto]. }
  assert (Un : forall j, unmade j (es ++ [(i, (LUser o, LUsed r))]) <-> unmade j es).
  { intros j. unfold unmade. rewrite in_snoc. split; [intros [H|H]; [exact H|discriminate]|auto]. }
  assert (Dr : forall j, dropped j (es ++ [(i, (LUser o, LUsed r))]) <-> dropped j es).
  { intros j. unfold dropped. rewrite in_snoc. split; [intros [H|H]; [exact H|discriminate]|auto]. }
  pose proof Al as [Al0 Re].
  assert (Kp : forall u, internal es u -> (keeps (ges ++ [(i, (o, r))]) u <-> keeps ges u)).
  { intros u Iu. destruct (f_int _ _ _ V u Iu) as [O N]. split; [apply keeps_before, O|]. intros K. apply keeps_after; [exact K| |].
    - intros X. apply N, (new_touched _ _ _ _ _ _ u Al0 E). left. exact X.
    - intros p f X. apply N, (new_touched _ _ _ _ _ _ u Al0 E). right. exists p, f. exact X. }
  constructor; cbn [process sockets ranges]; rewrite ?Th.
  - exact R'.
  - intros j. rewrite !in_progress_snoc. f_equal. apply (f_prog _ _ _ V).
  - intros j. rewrite !network_app. f_equal. apply (f_net _ _ _ V).
  - intros j. rewrite !registered_app. f_equal. apply (f_reg _ _ _ V).
  - intros x X. apply in_snoc in X as [X|X]; apply in_snoc; [left; apply (f_sub _ _ _ V), X|right; exact X].
  - intros x X. rewrite handled_app in *. apply in_app_or in X as [X|X]; [|left; apply in_or_app; auto].
    destruct (f_only _ _ _ V x X) as [Y|[Y|[(v & Y & Z)|Y]]]; [left; apply in_or_app; auto|auto| |auto]. right. right. left. exists v. split; [exact Y|]. apply In', Z.
  - intros u X. rewrite handled_app in *.
    assert (Old : forall u, opened (handled (theirs es)) u -> opened (handled (theirs es) ++ handled [(i, (o, r))]) u) by (intros v (n & Y); exists n; apply in_or_app; auto).
    apply Old. assert (D : (In (Close u, Done) (handled (theirs es)) \/ (exists p f, In (Add p f (Some u), Answer true) (handled (theirs es)))) \/
      (In (Close u, Done) (handled [(i, (o, r))]) \/ (exists p f, In (Add p f (Some u), Answer true) (handled [(i, (o, r))])))).
    { destruct X as [X|(p & f & X)]; apply in_app_or in X as [X|X]; eauto. }
    destruct D as [D|D]; [exact (f_used _ _ _ V u D)|]. apply (new_touched _ _ _ _ _ _ u Al0 E D).
  - intros u Iu. apply In' in Iu. destruct (f_int _ _ _ V u Iu) as [(n & O) N]. rewrite !handled_app. split; [exists n; apply in_or_app; auto|].
    intros (m & X). apply in_app_or in X as [X|X]; [apply N; exists m; exact X|].
    pose proof (new_opened _ _ _ _ _ _ _ _ (f_runs _ _ _ V) Al' E X). pose proof (opened_lt _ _ u (f_runs _ _ _ V) (ex_intro _ n O)). lia.
  - rewrite ids_app. cbn [ids flat_map snd app]. rewrite app_nil_r. apply (f_ids _ _ _ V).
  - intros j Hj. rewrite Un, Dr in Hj. destruct (f_made _ _ _ V j Hj) as (a & b & c & d & e & H). exists a, b, c, d, e. apply made_user, H.
  - intros j a b c d e a' b' c' d' e' H H'. rewrite made_user in H, H'. exact (f_once _ _ _ V j _ _ _ _ _ _ _ _ _ _ H H').
  - intros j Nu. rewrite Un in Nu. apply Tr; [intros ->; exact Re|]. apply (f_tree _ _ _ V), Nu.
  - intros j a b c d e H. rewrite made_user in H. destruct (f_keep _ _ _ V j a b c d e H) as (Ka & Kc & Ke & Kb & Kd).
    assert (Ii : forall u, In u [a; b; c; d; e] -> internal es u) by (intros u X; exists j, a, b, c, d, e; auto).
    rewrite Un, Dr. assert (St : forall u, In u [a; b; c; d; e] -> closings (base (process w)) u = 1%nat -> closings (base u') u = 1%nat).
    { intros u X Y. assert (O' : opened (handled (ges ++ [(i, (o, r))])) u) by (destruct (f_int _ _ _ V u (Ii u X)) as [(n & O) _]; exists n; rewrite handled_app; apply in_or_app; auto).
      exact (once_stays _ _ _ _ u more (f_runs _ _ _ V) R' Cl (opened_lt _ _ u R' O') Y). }
    rewrite !Kp by (apply Ii; cbn; tauto). split; [exact Ka|]. split; [exact Kc|]. split; [exact Ke|]. split.
    + destruct Kb as [Kb|(K1 & K2 & K3 & K4)]; [left; exact Kb|right]. split; [exact K1|]. split; [exact K2|]. split; [exact K3|]. apply St; [cbn; tauto|exact K4].
    + destruct Kd as [Kd|(K1 & K2 & K3 & K4)]; [left; exact Kd|right]. split; [exact K1|]. split; [exact K2|]. split; [exact K3|]. apply St; [cbn; tauto|exact K4].
Qed.

(** ** The libraries' own *)
Lemma in_progress_do j ges i o r : in_progress j (ges ++ [(i, (UDo o, r))]) = in_progress j ges.
Proof. rewrite in_progress_snoc. unfold stacked. cbn [fst snd]. destruct (Nat.eqb i j); reflexivity. Qed.
Lemma network_do j ges i o r : network j (ges ++ [(i, (UDo o, r))]) = network j ges.
Proof. rewrite network_app. apply app_nil_r. Qed.
Lemma registered_do j ges i o r : registered j (ges ++ [(i, (UDo o, r))]) = registered j ges.
Proof. rewrite registered_app. apply app_nil_r. Qed.

Lemma opening_ok ges u i n : uruns ges u -> 0 <= n -> lookup n (table (base u)) = None ->
  exists u', opening debug heaps i n u = (u', fresh (base u)) /\ uruns (ges ++ [(i, (UDo (Open n), UDid (Opened (fresh (base u)))))]) u' /\
    table (base u') = table (base u) ++ [(n, fresh (base u))] /\ fresh (base u') = S (fresh (base u)) /\ closed (base u') = closed (base u) /\
    (forall j, trees (base u') j = trees (base u) j) /\ (forall j p tail v, finds (base u') j p tail v <-> finds (base u) j p tail v).
Proof.
  intros R P L. unfold opening. destruct (ustep i (UDo (Open n)) u) as [u' r] eqn:E. pose proof E as E0. cbn [UserModel.ustep step] in E0. injection E0 as Eu Er.
  change (next (own (lib (base u) i))) with (fresh (base u)) in Er. subst r. exists u'. split; [reflexivity|]. split.
  - eapply uruns_snoc; [exact R| |exact E]. split; [|exact Logic.I]. split; [exact P|exact L].
  - subst u'. cbn. split; [reflexivity|]. split; [reflexivity|]. split; [reflexivity|]. split; [intros j; unfold upd; destruct (Nat.eqb_spec j i); congruence|].
    destruct (uruns_uinv debug shm size hdr M _ _ R) as [gg V].
    destruct (core_host debug _ _ _ _ i (Open n) _ _ (u_core _ _ _ _ V) (conj P L) eq_refl) as (_ & _ & _ & _ & _ & _ & Pl). apply Pl. left. exists n. reflexivity.
Qed.
Lemma nodup_join {A} (a b : list A) : NoDup a -> NoDup b -> (forall x, In x a -> In x b -> False) -> NoDup (a ++ b).
Proof.
  induction a as [|x a IH]; cbn [app]; intros Na Nb D; [exact Nb|]. apply NoDup_cons_iff in Na as [N1 N2]. constructor.
  - intros X. apply in_app_or in X as [X|X]; [exact (N1 X)|]. apply (D x); [left; reflexivity|exact X].
  - apply IH; auto. intros y Y1 Y2. apply (D y); [right; exact Y1|exact Y2].
Qed.
Lemma lookup_snoc_none n m (k : list (Z * nat)) v : lookup n k = None -> n <> m -> lookup n (k ++ [(m, v)]) = None.
Proof.
  induction k as [|[x y] k IH]; cbn [lookup app]; intros L D; [destruct (Z.eqb_spec m n); congruence|]. destruct (x =? n); [discriminate|]. apply IH; auto.
Qed.

Lemma finv_start es w ges i n1 n2 n3 n4 n5 w' r : finv es w ges -> lifeallowed es w i (LStart n1 n2 n3 n4 n5) -> lifestep debug heaps i (LStart n1 n2 n3 n4 n5) w = (w', r) ->
  (exists a b c d e, r = LStarted a b c d e) /\ (forall j, trees (base (process w')) j = trees (base (process w)) j) /\ closed (base (process w')) = closed (base (process w)) /\
  (forall j p tail v, finds (base (process w')) j p tail v <-> finds (base (process w)) j p tail v) /\
  exists ges', finv (es ++ [(i, (LStart n1 n2 n3 n4 n5, r))]) w' ges'.
Proof.
  intros V (Nm & Nn & Nf) E. cbn [lifestep] in E. pose proof (f_runs _ _ _ V) as R0. set (f := fresh (base (process w))) in *.
  assert (In5 : forall n, In n [n1; n2; n3; n4; n5] -> 0 <= n /\ lookup n (table (base (process w))) = None) by exact Nf.
  apply NoDup_cons_iff in Nn as [D1 Nn]. apply NoDup_cons_iff in Nn as [D2 Nn]. apply NoDup_cons_iff in Nn as [D3 Nn]. apply NoDup_cons_iff in Nn as [D4 _]. cbn [In] in D1, D2, D3, D4.
  destruct (In5 n1) as [P1 L1]; [cbn; tauto|]. destruct (In5 n2) as [P2 L2]; [cbn; tauto|]. destruct (In5 n3) as [P3 L3]; [cbn; tauto|].
  destruct (In5 n4) as [P4 L4]; [cbn; tauto|]. destruct (In5 n5) as [P5 L5]; [cbn; tauto|].
  destruct (opening_ok _ _ i n1 R0 P1 L1) as (u1 & E1 & R1 & T1 & F1 & C1 & Tr1 & Fi1). rewrite E1 in E. clear E1.
  destruct (opening_ok _ _ i n2 R1 P2) as (u2 & E2 & R2 & T2 & F2 & C2 & Tr2 & Fi2); [rewrite T1; apply lookup_snoc_none; [exact L2|tauto]|]. rewrite E2 in E. clear E2.
  destruct (opening_ok _ _ i n3 R2 P3) as (u3 & E3 & R3 & T3 & F3 & C3 & Tr3 & Fi3); [rewrite T2, T1; repeat apply lookup_snoc_none; first [assumption|tauto]|]. rewrite E3 in E. clear E3.
  destruct (opening_ok _ _ i n4 R3 P4) as (u4 & E4 & R4 & T4 & F4 & C4 & Tr4 & Fi4); [rewrite T3, T2, T1; repeat apply lookup_snoc_none; first [assumption|tauto]|]. rewrite E4 in E. clear E4.
  destruct (opening_ok _ _ i n5 R4 P5) as (u5 & E5 & R5 & T5 & F5 & C5 & Tr5 & Fi5); [rewrite T4, T3, T2, T1; repeat apply lookup_snoc_none; first [assumption|tauto]|]. rewrite E5 in E. clear E5.
  injection E as <- <-. rewrite F1 in *. rewrite F2 in *. rewrite F3 in *. rewrite F4 in *. fold f in R1, R2, R3, R4, R5, F5. fold f. clear T1 T2 T3 T4 T5.
  split; [do 5 eexists; reflexivity|]. cbn [process].
  assert (Tr : forall j, trees (base u5) j = trees (base (process w)) j) by (intros j; rewrite Tr5, Tr4, Tr3, Tr2; apply Tr1).
  assert (Cl : closed (base u5) = closed (base (process w))) by congruence.
  split; [exact Tr|]. split; [exact Cl|].
  split; [intros j p tail v; rewrite Fi5, Fi4, Fi3, Fi2; apply Fi1|].
  set (x := (i, (LStart n1 n2 n3 n4 n5, LStarted f (S f) (S (S f)) (S (S (S f))) (S (S (S (S f))))))).
  set (ev := [(i, (UDo (Open n1), UDid (Opened f))); (i, (UDo (Open n2), UDid (Opened (S f)))); (i, (UDo (Open n3), UDid (Opened (S (S f)))));
    (i, (UDo (Open n4), UDid (Opened (S (S (S f)))))); (i, (UDo (Open n5), UDid (Opened (S (S (S (S f)))))))]).
  exists (ges ++ ev).
  assert (R : uruns (ges ++ ev) u5) by (rewrite <- !app_assoc in R5; exact R5).
  assert (He : handled (ges ++ ev) = handled ges ++ [(Open n1, Opened f); (Open n2, Opened (S f)); (Open n3, Opened (S (S f))); (Open n4, Opened (S (S (S f)))); (Open n5, Opened (S (S (S (S f)))))])
    by (rewrite handled_app; reflexivity).
  assert (Th : theirs (es ++ [x]) = theirs es) by (rewrite theirs_app; apply app_nil_r).
  assert (Un : forall j, unmade j (es ++ [x]) <-> unmade j es).
  { intros j. unfold unmade. rewrite in_snoc. split; [intros [H|H]; [exact H|discriminate]|auto]. }
  assert (Dr : forall j, dropped j (es ++ [x]) <-> dropped j es).
  { intros j. unfold dropped. rewrite in_snoc. split; [intros [H|H]; [exact H|discriminate]|auto]. }
  assert (Old : forall u, opened (handled ges) u -> opened (handled (ges ++ ev)) u) by (intros u (n & X); exists n; rewrite He; apply in_or_app; auto).
  assert (Kold : forall u, opened (handled ges) u -> (keeps (ges ++ ev) u <-> keeps ges u)).
  { intros u O. split; [apply keeps_before, O|]. intros K. apply keeps_after; [exact K| |].
    - intros X. repeat (destruct X as [X|X]; [discriminate|]). destruct X.
    - intros p g X. repeat (destruct X as [X|X]; [discriminate|]). destruct X. }
  assert (Knew : forall n u, In (Open n, Opened u) [(Open n1, Opened f); (Open n2, Opened (S f)); (Open n3, Opened (S (S f))); (Open n4, Opened (S (S (S f)))); (Open n5, Opened (S (S (S (S f)))))] -> (f <= u)%nat /\ keeps (ges ++ ev) u).
  { intros n u X. assert (Lu : (f <= u)%nat) by (cbn [In] in X; repeat destruct X as [X|X]; try injection X as _ <-; try lia; destruct X). split; [exact Lu|]. unfold keeps. rewrite He. split.
    - exists n. apply in_or_app. right. exact X.
    - split.
      + intros Y. apply in_app_or in Y as [Y|Y]; [|repeat (destruct Y as [Y|Y]; [discriminate|]); destruct Y].
        pose proof (touched_lt _ _ u R0 (or_introl (ex_intro _ Done Y))). fold f in H. lia.
      + intros p g Y. apply in_app_or in Y as [Y|Y]; [|repeat (destruct Y as [Y|Y]; [discriminate|]); destruct Y].
        assert (H : (u < f)%nat) by (apply (touched_lt _ _ u R0); right; exists p, g, (Answer true); exact Y). lia. }
  assert (Mm : forall j a b c d e, made j (es ++ [x]) a b c d e <-> made j es a b c d e \/ j = i /\ (a, b, c, d, e) = (f, S f, S (S f), S (S (S f)), S (S (S (S f))))).
  { intros j a b c d e. rewrite made_snoc. split; (intros [H|H]; [left; exact H|right]).
    - destruct H as (m1 & m2 & m3 & m4 & m5 & H). unfold x in H. injection H as -> _ _ _ _ _ <- <- <- <- <-. split; reflexivity.
    - destruct H as [-> H]. injection H as -> -> -> -> ->. exists n1, n2, n3, n4, n5. reflexivity. }
  assert (Ii : forall u, internal (es ++ [x]) u <-> internal es u \/ In u [f; S f; S (S f); S (S (S f)); S (S (S (S f)))]).
  { intros u. unfold internal. split.
    - intros (j & a & b & c & d & e & H & X). apply Mm in H as [H|[-> H]]; [left; exists j, a, b, c, d, e; auto|]. injection H as -> -> -> -> ->. auto.
    - intros [(j & a & b & c & d & e & H & X)|X].
      + exists j, a, b, c, d, e. split; [apply Mm; auto|exact X].
      + exists i, f, (S f), (S (S f)), (S (S (S f))), (S (S (S (S f)))). split; [apply Mm; auto|exact X]. }
  assert (New : forall u, In u [f; S f; S (S f); S (S (S f)); S (S (S (S f)))] -> exists n, In (Open n, Opened u) [(Open n1, Opened f); (Open n2, Opened (S f)); (Open n3, Opened (S (S f))); (Open n4, Opened (S (S (S f)))); (Open n5, Opened (S (S (S (S f)))))]).
  { intros u X. cbn [In] in *. repeat (destruct X as [X|X]; [subst u; eauto 8|]). destruct X. }
  constructor; cbn [process sockets ranges]; rewrite ?Th.
  - exact R.
  - intros j. unfold ev. rewrite stacked_app. cbn [fold_left]. unfold stacked at 1 2 3 4 5. cbn [fst snd]. rewrite <- (f_prog _ _ _ V j). destruct (Nat.eqb i j); reflexivity.
  - intros j. rewrite network_app. change (network j ev) with (@nil (netop * policy)). rewrite app_nil_r. apply (f_net _ _ _ V).
  - intros j. rewrite registered_app. change (registered j ev) with (@nil (Z * bool)). rewrite app_nil_r. apply (f_reg _ _ _ V).
  - intros y Y. apply in_or_app. left. apply (f_sub _ _ _ V), Y.
  - intros y Y. rewrite He in Y. apply in_app_or in Y as [Y|Y].
    + destruct (f_only _ _ _ V y Y) as [Z|[Z|[(v & Z & Z')|Z]]]; auto. right. right. left. exists v. split; [exact Z|]. apply Ii. auto.
    + right. left. cbn [In] in Y. repeat (destruct Y as [<-|Y]; [eauto|]). destruct Y.
  - exact (f_used _ _ _ V).
  - intros u Iu. apply Ii in Iu as [Iu|Iu].
    + destruct (f_int _ _ _ V u Iu) as [O N]. split; [apply Old, O|exact N].
    + destruct (New u Iu) as [n X]. destruct (Knew n u X) as [Lu Ku]. split; [exists n; rewrite He; apply in_or_app; right; exact X|].
      intros (m & Y). apply (sub_handled _ _ _ _ V) in Y. pose proof (opened_lt _ _ u R0 (ex_intro _ m Y)). fold f in H. lia.
  - rewrite ids_app. change (ids [x]) with [f; S f; S (S f); S (S (S f)); S (S (S (S f)))]. apply nodup_join.
    + exact (f_ids _ _ _ V).
    + repeat constructor; cbn [In]; lia.
    + intros u U1 U2. apply ids_internal in U1. destruct (f_int _ _ _ V u U1) as [O _]. pose proof (opened_lt _ _ u R0 O). fold f in H. cbn [In] in U2. lia.
  - intros j Hj. rewrite Un, Dr in Hj. destruct (Nat.eq_dec j i) as [-> |D]; [exists f, (S f), (S (S f)), (S (S (S f))), (S (S (S (S f)))); apply Mm; auto|].
    rewrite !upd_other in Hj by exact D. destruct (f_made _ _ _ V j Hj) as (a & b & c & d & e & H). exists a, b, c, d, e. apply Mm. auto.
  - intros j a b c d e a' b' c' d' e' H H'. apply Mm in H. apply Mm in H'. destruct H as [H|[-> H]]; destruct H' as [H'|[Ej H']].
    + exact (f_once _ _ _ V j _ _ _ _ _ _ _ _ _ _ H H').
    + subst j. destruct (Nm _ _ _ _ _ H).
    + destruct (Nm _ _ _ _ _ H').
    + rewrite H, H'. reflexivity.
  - intros j Nu. rewrite Tr. apply (f_tree _ _ _ V). rewrite <- Un. exact Nu.
  - intros j a b c d e H. rewrite Un, Dr. apply Mm in H as [H|[-> H]].
    + assert (D : j <> i) by (intros ->; exact (Nm _ _ _ _ _ H)). rewrite !upd_other by exact D.
      destruct (f_keep _ _ _ V j a b c d e H) as (Ka & Kc & Ke & Kb & Kd).
      assert (Op : forall u, In u [a; b; c; d; e] -> opened (handled ges) u) by (intros u X; apply (f_int _ _ _ V); exists j, a, b, c, d, e; auto).
      rewrite !Kold by (apply Op; cbn; tauto). unfold closings, times_closed. change (closes (own (lib (base u5) 0))) with (closed (base u5)). rewrite Cl. auto.
    + injection H as -> -> -> -> ->. unfold upd. rewrite Nat.eqb_refl.
      assert (Nw : forall u, In u [f; S f; S (S f); S (S (S f)); S (S (S (S f)))] -> keeps (ges ++ ev) u) by (intros u X; destruct (New u X) as [n Y]; apply (Knew n u Y)).
      assert (Ns : ~ unmade i es /\ ~ dropped i es).
      { split; intros X; (destruct (f_made _ _ _ V i) as (a & b & c & d & e & H); [auto|exact (Nm _ _ _ _ _ H)]). }
      repeat split; try (apply Nw; cbn; tauto); left; (split; [reflexivity|]); (split; [apply Ns|]); apply Nw; cbn; tauto.
Qed.

Lemma close_ok ges u i s : uruns ges u -> keeps ges s ->
  exists u' f, ustep i (UDo (Close s)) u = (u', UDid Done) /\ uruns (ges ++ [(i, (UDo (Close s), UDid Done))]) u' /\
    closed (base u') = closed (base u) ++ [(f, Some s)] /\ closings (base u') s = 1%nat /\ (forall j, trees (base u') j = trees (base u) j) /\
    (forall j p tail v, finds (base u') j p tail v <-> finds (base u) j p tail v).
Proof.
  intros R K. destruct (uruns_uinv debug shm size hdr M _ _ R) as [gg V]. pose proof (u_core _ _ _ _ V) as C. pose proof (c_holds _ _ _ _ _ C s K) as H.
  destruct (held_number debug gg (base u) s (c_linv _ _ _ _ _ C) H) as [n L].
  pose proof (step_close debug gg (base u) i n s (c_linv _ _ _ _ _ C) H L) as E.
  destruct (host_moves debug gg (base u) i (Close s) _ _ (c_linv _ _ _ _ _ C) H E) as (_ & _ & _ & _ & _ & _ & Pl).
  pose (u' := User (host_step (base u) i (shut n s (own (lib (base u) i)))) (disps u) (running u)). exists u', n.
  assert (Eu : ustep i (UDo (Close s)) u = (u', UDid Done)) by (cbn [UserModel.ustep]; rewrite E; reflexivity).
  split; [exact Eu|]. split; [|split; [reflexivity|split; [|split]]].
  - eapply uruns_snoc; [exact R| |exact Eu]. split; [exact K|exact Logic.I].
  - destruct (held_facts _ _ _ R K) as [Z _]. unfold closings, times_closed in *. change (closes (own (lib (base u') 0))) with (closed (base u) ++ [(n, Some s)]).
    change (closes (own (lib (base u) 0))) with (closed (base u)) in Z. rewrite filter_app, app_length, Z. cbn. rewrite Nat.eqb_refl. reflexivity.
  - intros j. cbn. unfold upd. destruct (Nat.eqb_spec j i); congruence.
  - apply Pl. right. exists s. reflexivity.
Qed.
Lemma drop_ok ges u i : uruns ges u -> trees (base u) i <> None -> in_progress i ges = [] ->
  exists u' more, ustep i (UDo Drop) u = (u', UDid Done) /\ uruns (ges ++ [(i, (UDo Drop, UDid Done))]) u' /\
    closed (base u') = closed (base u) ++ more /\ (forall j, j <> i -> trees (base u') j = trees (base u) j) /\
    (forall j p tail v, j <> i -> (finds (base u') j p tail v <-> finds (base u) j p tail v)).
Proof.
  intros R T P. destruct (uruns_uinv debug shm size hdr M _ _ R) as [gg V].
  destruct (ustep i (UDo Drop) u) as [u' r] eqn:E. destruct (ustep_grows _ _ _ _ _ _ _ E) as ((more & Cl) & _ & Ot).
  assert (Al : uallowed ges u i (UDo Drop)) by (split; [exact T|exact P]).
  pose proof E as E0. cbn [UserModel.ustep] in E0. destruct (step debug Drop (own (lib (base u) i))) as [s' ro] eqn:S. injection E0 as Eu <-.
  destruct (uinv_do debug ges u gg i Drop s' ro V Al S) as (Na & Fi & _).
  assert (ro = Done).
  { cbn [step] in S. change (tree (own (lib (base u) i))) with (trees (base u) i) in S. destruct (trees (base u) i); [|congruence].
    destruct (destroy _ _ _ _) as [[k c]|]; injection S as _ <-; [reflexivity|congruence]. }
  subst ro. exists u', more. split; [reflexivity|]. split; [eapply uruns_snoc; eauto|]. split; [exact Cl|]. split; [exact Ot|]. subst u'. exact Fi.
Qed.

(** One library loses one of its own descriptors, and perhaps its tree. *)
Lemma finv_less es w ges i o r u' so ra s ev : finv es w ges -> internal es s ->
  (o, r) = (LStop, LStopped) \/ (o, r) = (LForget, LForgot) ->
  uruns (ges ++ ev) u' -> (forall j, in_progress j (ges ++ ev) = in_progress j ges) -> (forall j, network j ev = []) -> (forall j, registered j ev = []) ->
  (forall x, In x (handled ev) -> x = (Close s, Done) \/ x = (Drop, Done)) -> In (Close s, Done) (handled ev) ->
  (exists more, closed (base u') = closed (base (process w)) ++ more) -> closings (base u') s = 1%nat ->
  (forall j, ~ unmade j (es ++ [(i, (o, r))]) -> trees (base u') j = trees (base (process w)) j) ->
  (forall j a b c d e, made j es a b c d e ->
     (ra j = ranges w j /\ (dropped j (es ++ [(i, (o, r))]) <-> dropped j es) /\ s <> b \/ ra j = None /\ dropped j (es ++ [(i, (o, r))]) /\ s = b) /\
     (so j = sockets w j /\ (unmade j (es ++ [(i, (o, r))]) <-> unmade j es) /\ s <> d \/ so j = None /\ unmade j (es ++ [(i, (o, r))]) /\ s = d) /\
     s <> a /\ s <> c /\ s <> e) ->
  (forall j, (so j <> None -> sockets w j <> None) /\ (ra j <> None -> ranges w j <> None)) ->
  (exists a b c d e, made i es a b c d e) ->
  finv (es ++ [(i, (o, r))]) (Life u' so ra) (ges ++ ev).
Proof.
  intros V Is Or R Hp Hn Hr He Hc (more & Cl) C1 Tr Hm Hs Mi. set (x := (i, (o, r))) in *.
  assert (Th : theirs (es ++ [x]) = theirs es) by (rewrite theirs_app; destruct Or as [Or|Or]; unfold x; rewrite Or; apply app_nil_r).
  assert (Nx : forall j n1 n2 n3 n4 n5 a b c d e, x <> (j, (LStart n1 n2 n3 n4 n5, LStarted a b c d e))) by (intros; unfold x; destruct Or as [-> | ->]; discriminate).
  assert (Mm : forall j a b c d e, made j (es ++ [x]) a b c d e <-> made j es a b c d e).
  { intros j a b c d e. rewrite made_snoc. split; [intros [H|(n1 & n2 & n3 & n4 & n5 & H)]; [exact H|destruct (Nx _ _ _ _ _ _ _ _ _ _ _ H)]|auto]. }
  assert (Ii : forall u, internal (es ++ [x]) u <-> internal es u).
  { intros u. unfold internal. split; intros (j & a & b & c & d & e & H & X); exists j, a, b, c, d, e; (split; [apply Mm, H|exact X]). }
  assert (Kp : forall u, opened (handled ges) u -> u <> s -> (keeps (ges ++ ev) u <-> keeps ges u)).
  { intros u O D. split; [apply keeps_before, O|]. intros K. apply keeps_after; [exact K| |].
    - intros X. apply He in X as [X|X]; [injection X as X; exact (D X)|discriminate].
    - intros p f X. apply He in X as [X|X]; discriminate. }
  assert (Ks : ~ keeps (ges ++ ev) s) by (intros (_ & N & _); apply N; rewrite handled_app; apply in_or_app; auto).
  constructor; cbn [process sockets ranges]; rewrite ?Th.
  - exact R.
  - intros j. rewrite Hp. apply (f_prog _ _ _ V).
  - intros j. rewrite network_app, Hn, app_nil_r. apply (f_net _ _ _ V).
  - intros j. rewrite registered_app, Hr, app_nil_r. apply (f_reg _ _ _ V).
  - intros y Y. apply in_or_app. left. apply (f_sub _ _ _ V), Y.
  - intros y Y. rewrite handled_app in Y. apply in_app_or in Y as [Y|Y].
    + destruct (f_only _ _ _ V y Y) as [Z|[Z|[(v & Z & Z')|Z]]]; auto. right. right. left. exists v. split; [exact Z|]. apply Ii. auto.
    + apply He in Y as [-> | ->]; [|auto]. right. right. left. exists s. split; [reflexivity|]. apply Ii, Is.
  - exact (f_used _ _ _ V).
  - intros u Iu. apply Ii in Iu. destruct (f_int _ _ _ V u Iu) as [(n & O) N]. split; [|exact N]. exists n. rewrite handled_app. apply in_or_app. auto.
  - rewrite ids_app. assert (Ei : ids [x] = []) by (unfold x; destruct Or as [-> | ->]; reflexivity). rewrite Ei, app_nil_r. apply (f_ids _ _ _ V).
  - intros j Hj. destruct (Nat.eq_dec j i) as [-> |D]; [destruct Mi as (a & b & c & d & e & H); exists a, b, c, d, e; apply Mm, H|].
    assert (Hj' : sockets w j <> None \/ ranges w j <> None \/ unmade j es \/ dropped j es).
    { destruct (Hs j) as [S1 S2]. destruct Hj as [Hj|[Hj|[Hj|Hj]]]; [auto|auto| |].
      - unfold unmade in Hj. apply in_snoc in Hj as [Hj|Hj]; [auto|]. unfold x in Hj. injection Hj as <- _ _. congruence.
      - unfold dropped in Hj. apply in_snoc in Hj as [Hj|Hj]; [auto|]. unfold x in Hj. injection Hj as <- _ _. congruence. }
    destruct (f_made _ _ _ V j Hj') as (a & b & c & d & e & H). exists a, b, c, d, e. apply Mm, H.
  - intros j a b c d e a' b' c' d' e' H H'. rewrite Mm in H, H'. exact (f_once _ _ _ V j _ _ _ _ _ _ _ _ _ _ H H').
  - intros j Nu. rewrite (Tr j Nu). apply (f_tree _ _ _ V). intros X. apply Nu. apply in_snoc. left. exact X.
  - intros j a b c d e H. rewrite Mm in H. destruct (f_keep _ _ _ V j a b c d e H) as (Ka & Kc & Ke & Kb & Kd).
    destruct (Hm j a b c d e H) as (Hb & Hd & Sa & Sc & Se).
    assert (Op : forall u, In u [a; b; c; d; e] -> opened (handled ges) u) by (intros u X; apply (f_int _ _ _ V); exists j, a, b, c, d, e; auto).
    assert (St : forall u, In u [a; b; c; d; e] -> closings (base (process w)) u = 1%nat -> closings (base u') u = 1%nat).
    { intros u X Y. assert (O' : opened (handled (ges ++ ev)) u) by (destruct (Op u X) as [n O]; exists n; rewrite handled_app; apply in_or_app; auto).
      exact (once_stays _ _ _ _ u more (f_runs _ _ _ V) R Cl (opened_lt _ _ u R O') Y). }
    split; [apply Kp; [apply Op; cbn; tauto|congruence|exact Ka]|]. split; [apply Kp; [apply Op; cbn; tauto|congruence|exact Kc]|]. split; [apply Kp; [apply Op; cbn; tauto|congruence|exact Ke]|]. split.
    + destruct Hb as [(-> & Ed & Sb)|(-> & Ed & <-)]; [|right; auto]. rewrite Ed, Kp by (try (apply Op; cbn; tauto); congruence).
      destruct Kb as [Kb|(K1 & K2 & K3 & K4)]; [left; exact Kb|right]. repeat split; auto. apply St; [cbn; tauto|exact K4].
    + destruct Hd as [(-> & Ed & Sb)|(-> & Ed & <-)]; [|right; auto]. rewrite Ed, Kp by (try (apply Op; cbn; tauto); congruence).
      destruct Kd as [Kd|(K1 & K2 & K3 & K4)]; [left; exact Kd|right]. repeat split; auto. apply St; [cbn; tauto|exact K4].
Qed.

Lemma ids_nodup es i a b c d e : NoDup (ids es) -> made i es a b c d e -> NoDup [a; b; c; d; e].
Proof.
  intros N (n1 & n2 & n3 & n4 & n5 & I1). apply in_split in I1 as (l1 & l2 & ->). rewrite ids_app in N. cbn [ids flat_map snd] in N.
  apply NoDup_app_r' in N. apply NoDup_app_l in N. exact N.
Qed.
Lemma ids_apart es i j a b c d e a' b' c' d' e' u : NoDup (ids es) -> i <> j -> made i es a b c d e -> made j es a' b' c' d' e' -> In u [a; b; c; d; e] -> In u [a'; b'; c'; d'; e'] -> False.
Proof.
  intros N D (n1 & n2 & n3 & n4 & n5 & I1) (m1 & m2 & m3 & m4 & m5 & I2) U1 U2. apply in_split in I1 as (l1 & l2 & ->). rewrite ids_app in N. cbn [ids flat_map snd] in N.
  apply in_app_or in I2 as [I2|[I2|I2]]; [|injection I2 as X _; congruence|].
  - assert (X : In u (ids l1)) by (apply ids_internal; exists j, a', b', c', d', e'; split; [exists m1, m2, m3, m4, m5; exact I2|exact U2]).
    apply (nodup_twice _ _ u N X). apply in_or_app. left. exact U1.
  - assert (X : In u (ids l2)) by (apply ids_internal; exists j, a', b', c', d', e'; split; [exists m1, m2, m3, m4, m5; exact I2|exact U2]).
    apply NoDup_app_r' in N. apply (nodup_twice _ _ u N U1 X).
Qed.

Lemma finv_forget es w ges i w' r : finv es w ges -> lifeallowed es w i LForget -> lifestep debug heaps i LForget w = (w', r) ->
  r = LForgot /\ (forall j p tail v, finds (base (process w')) j p tail v <-> finds (base (process w)) j p tail v) /\
  (exists b, ranges w i = Some b /\ exists f, closed (base (process w')) = closed (base (process w)) ++ [(f, Some b)]) /\
  exists ges', finv (es ++ [(i, (LForget, r))]) w' ges'.
Proof.
  intros V Al E. cbn [lifeallowed] in Al. cbn [lifestep] in E. destruct (ranges w i) as [b0|] eqn:Ra; [|congruence].
  destruct (f_made _ _ _ V i) as (a & b & c & d & e & Hm); [right; left; congruence|].
  destruct (f_keep _ _ _ V i a b c d e Hm) as (Ka & Kc & Ke & Kb & Kd). destruct Kb as [(K1 & K2 & K3)|(K1 & _)]; [|congruence].
  assert (b0 = b) by congruence. subst b0.
  destruct (close_ok _ _ i b (f_runs _ _ _ V) K3) as (u' & f & Eu & R & Cl & C1 & Tr & Fi). rewrite Eu in E. injection E as <- <-.
  split; [reflexivity|]. split; [exact Fi|]. split; [exists b; split; [reflexivity|exists f; exact Cl]|]. eexists.
  pose proof (ids_nodup _ _ _ _ _ _ _ (f_ids _ _ _ V) Hm) as Nd.
  assert (Un : forall j, unmade j (es ++ [(i, (LForget, LForgot))]) <-> unmade j es).
  { intros j. unfold unmade. rewrite in_snoc. split; [intros [H|H]; [exact H|discriminate]|auto]. }
  eapply (finv_less es w ges i LForget LForgot u' _ _ b [(i, (UDo (Close b), UDid Done))]); [exact V| |right; reflexivity| | |reflexivity|reflexivity| | | |exact C1|intros; apply Tr| | |].
  - exists i, a, b, c, d, e. cbn. auto.
  - exact R.
  - intros j. apply in_progress_do.
  - intros x [X|[]]. auto.
  - left. reflexivity.
  - exists [(f, Some b)]. exact Cl.
  - intros j a' b' c' d' e' H. rewrite Un. destruct (Nat.eq_dec j i) as [-> |D].
    + pose proof (f_once _ _ _ V i _ _ _ _ _ _ _ _ _ _ Hm H) as X. injection X as <- <- <- <- <-.
      repeat (apply NoDup_cons_iff in Nd as [? Nd]). cbn [In] in *. unfold upd. rewrite Nat.eqb_refl. split; [right; split; [reflexivity|]; split; [apply in_snoc; auto|reflexivity]|].
      split; [left; split; [reflexivity|]; split; [reflexivity|]; intros X; subst; tauto|]. repeat split; intros X; subst; tauto.
    + assert (Nb : ~ In b [a'; b'; c'; d'; e']).
      { intros X. apply (ids_apart es i j a b c d e a' b' c' d' e' b (f_ids _ _ _ V)); auto. cbn. auto. }
      cbn [In] in Nb. rewrite upd_other by exact D. split; [left; split; [reflexivity|]; split; [|intros X; subst; tauto]|].
      * unfold dropped. rewrite in_snoc. split; [intros [X|X]; [exact X|injection X as X; congruence]|auto].
      * split; [left; split; [reflexivity|]; split; [reflexivity|]; intros X; subst; tauto|]. repeat split; intros X; subst; tauto.
  - intros j. split; [auto|]. unfold upd. destruct (Nat.eqb j i); [congruence|auto].
  - exists a, b, c, d, e. exact Hm.
Qed.

Lemma finv_stop es w ges i w' r : finv es w ges -> lifeallowed es w i LStop -> lifestep debug heaps i LStop w = (w', r) ->
  r = LStopped /\ (forall j p tail v, j <> i -> (finds (base (process w')) j p tail v <-> finds (base (process w)) j p tail v)) /\
  exists ges', finv (es ++ [(i, (LStop, r))]) w' ges'.
Proof.
  intros V [Al Ip] E. cbn [lifestep] in E. destruct (sockets w i) as [d0|] eqn:Ra; [|congruence].
  destruct (f_made _ _ _ V i) as (a & b & c & d & e & Hm); [left; congruence|].
  destruct (f_keep _ _ _ V i a b c d e Hm) as (Ka & Kc & Ke & Kb & Kd). destruct Kd as [(K1 & K2 & K3)|(K1 & _)]; [|congruence].
  assert (d0 = d) by congruence. subst d0.
  destruct (close_ok _ _ i d (f_runs _ _ _ V) K3) as (u1 & f & Eu & R & Cl & C1 & Tr & Fi). rewrite Eu in E.
  destruct (drop_ok _ u1 i R) as (u2 & more & Eu2 & R2 & Cl2 & Tr2 & Fi2); [rewrite Tr; apply (f_tree _ _ _ V), K2|rewrite in_progress_do, (f_prog _ _ _ V); exact Ip|].
  rewrite Eu2 in E. injection E as <- <-.
  split; [reflexivity|]. split; [intros j p tail v D; cbn [process]; rewrite (Fi2 j p tail v D); apply Fi|]. rewrite <- app_assoc in R2. cbn [app] in R2. eexists.
  pose proof (ids_nodup _ _ _ _ _ _ _ (f_ids _ _ _ V) Hm) as Nd.
  assert (Dr : forall j, dropped j (es ++ [(i, (LStop, LStopped))]) <-> dropped j es).
  { intros j. unfold dropped. rewrite in_snoc. split; [intros [H|H]; [exact H|discriminate]|auto]. }
  eapply (finv_less es w ges i LStop LStopped u2 _ _ d [(i, (UDo (Close d), UDid Done)); (i, (UDo Drop, UDid Done))]); [exact V| |left; reflexivity| | |reflexivity|reflexivity| | | | | | | |].
  - exists i, a, b, c, d, e. cbn. tauto.
  - exact R2.
  - intros j. change (in_progress j (ges ++ ([(i, (UDo (Close d), UDid Done))] ++ [(i, (UDo Drop, UDid Done))])) = in_progress j ges). rewrite app_assoc, in_progress_do. apply in_progress_do.
  - intros x [X|[X|[]]]; auto.
  - left. reflexivity.
  - exists ([(f, Some d)] ++ more). rewrite Cl2, Cl, app_assoc. reflexivity.
  - destruct (f_int _ _ _ V d) as [(n & O) _]; [exists i, a, b, c, d, e; cbn; tauto|].
    apply (once_stays _ _ _ _ d more R R2 Cl2); [|exact C1]. apply (opened_lt _ _ d R2). exists n. rewrite handled_app. apply in_or_app. auto.
  - intros j Nu. destruct (Nat.eq_dec j i) as [-> |D]; [destruct Nu; apply in_snoc; auto|]. rewrite (Tr2 j D). apply Tr.
  - intros j a' b' c' d' e' H. rewrite Dr. destruct (Nat.eq_dec j i) as [-> |D].
    + pose proof (f_once _ _ _ V i _ _ _ _ _ _ _ _ _ _ Hm H) as X. injection X as <- <- <- <- <-.
      repeat (apply NoDup_cons_iff in Nd as [? Nd]). cbn [In] in *. unfold upd. rewrite Nat.eqb_refl.
      split; [left; split; [reflexivity|]; split; [reflexivity|]; intros X; subst; tauto|].
      split; [right; split; [reflexivity|]; split; [apply in_snoc; auto|reflexivity]|]. repeat split; intros X; subst; tauto.
    + assert (Nb : ~ In d [a'; b'; c'; d'; e']).
      { intros X. apply (ids_apart es i j a b c d e a' b' c' d' e' d (f_ids _ _ _ V)); auto. cbn. tauto. }
      cbn [In] in Nb. rewrite upd_other by exact D. split; [left; split; [reflexivity|]; split; [reflexivity|]; intros X; subst; tauto|].
      split; [left; split; [reflexivity|]; split; [|intros X; subst; tauto]|repeat split; intros X; subst; tauto].
      unfold unmade. rewrite in_snoc. split; [intros [X|X]; [exact X|injection X as X; congruence]|auto].
  - intros j. split; [|auto]. unfold upd. destruct (Nat.eqb j i); [congruence|auto].
  - exists a, b, c, d, e. exact Hm.
Qed.

Lemma liferuns_finv es w : liferuns debug heaps es w -> exists ges, finv es w ges.
Proof.
  induction 1 as [|es w i o w' r R [ges V] Al E]; [exists []; exact finv_0|].
  destruct o as [o|n1 n2 n3 n4 n5| |].
  - cbn [lifestep] in E. destruct (ustep i o (process w)) as [u' ru] eqn:Eu. injection E as <- <-. eexists. eapply finv_user; eauto.
  - destruct (finv_start es w ges i n1 n2 n3 n4 n5 w' r V Al E) as (_ & _ & _ & _ & X). exact X.
  - destruct (finv_stop es w ges i w' r V Al E) as (_ & _ & X). exact X.
  - destruct (finv_forget es w ges i w' r V Al E) as (_ & _ & _ & X). exact X.
Qed.
End INV.
