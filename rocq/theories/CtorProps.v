(** The claimed theorems about a new Library (C55, C56). *)
From Coq Require Import String Ascii List ZArith Bool Lia.
From Verif Require Import Base PathModel PathSpec FileTreeModel FileTreeSpec FileTreeProof FileTreeProps
  RegionModel RegionSpec DispatchModel HostCallsModel HostCallsSpec HostCallsProps CtorModel.
Import ListNotations.
Open Scope Z_scope.

(** Exports none of which lies at or below another. *)
Definition apart (a b : list text) : Prop := is_prefix a b = false /\ is_prefix b a = false.
Inductive all_apart : list (list text) -> Prop :=
| apart_nil : all_apart []
| apart_snoc l q : all_apart l -> (forall r, In r l -> apart r q) -> all_apart (l ++ [q]).

Lemma strict_is_prefix p q : strict_prefix p q = true -> is_prefix p q = true.
Proof. unfold strict_prefix. intros H. apply andb_prop in H. tauto. Qed.

Lemma history_apart h v : history h v -> all_apart (map (fun e => fst (fst e)) h) ->
  (forall e, In e h -> snd e = true) /\
  (forall p fd, (v p = AFile fd <-> In (p, LeafFile fd, true) h) /\ (v p = ADir fd <-> In (p, LeafDir fd, true) h)).
Proof.
  induction 1 as [|h v q l H IH N|h v q l H IH N]; intros A.
  - split; [intros e []|]. intros p fd. unfold empty_view. destruct p; split; split; intros X; try discriminate; destruct X.
  - rewrite map_app in A. cbn in A. inversion A as [E|l0 q0 A1 A2 E]; [destruct (map _ h); discriminate|].
    apply app_inj_tail in E as [-> ->]. destruct (IH A1) as [I1 I2]. split.
    + intros e X. apply in_app_or in X as [X|[<-|[]]]; auto.
    + assert (NI : forall p x, In (p, x, true) h -> apart p q).
      { intros p x X. apply A2. change p with (fst (fst (p, x, true))). apply (in_map (fun e => fst (fst e))). exact X. }
      assert (SN : forall p x y, In (p, x, true) (h ++ [(q, y, true)]) <-> In (p, x, true) h \/ (p = q /\ x = y)).
      { intros p x y. rewrite in_app_iff. cbn. split; intros [X|X]; auto.
        - destruct X as [X|[]]. injection X as -> ->. auto.
        - destruct X as [-> ->]. auto. }
      assert (C : forall p, (v p <> Absent -> v p <> Virtual -> is_prefix p q = false /\ is_prefix q p = false)).
      { intros p X Y. destruct (v p) as [| |fd|fd] eqn:E; try congruence.
        - apply (NI p (LeafFile fd)). apply I2. auto.
        - apply (NI p (LeafDir fd)). apply I2. auto. }
      intros p fd. rewrite !SN. unfold exported. destruct (names_eq_dec p q) as [->|NE].
      * assert (Z : forall x, ~ In (q, x, true) h).
        { intros x X. apply NI in X as [X _]. assert (is_prefix q q = true) by (apply is_prefix_spec; exists []; rewrite app_nil_r; auto). congruence. }
        destruct l; cbn; split; split; intros X; try discriminate;
          try (injection X as ->; auto); try (destruct X as [X|[_ X]]; [destruct (Z _ X)|congruence]).
      * destruct (strict_prefix p q) eqn:S1.
        { split; split; intros X; try discriminate; destruct X as [X|[X _]]; try congruence;
            apply NI in X as [X _]; rewrite (strict_is_prefix _ _ S1) in X; discriminate. }
        destruct (strict_prefix q p) eqn:S2.
        { split; split; intros X; try discriminate; destruct X as [X|[X _]]; try congruence;
            apply NI in X as [_ X]; rewrite (strict_is_prefix _ _ S2) in X; discriminate. }
        split; split; intros X; try (left; apply I2; exact X); destruct X as [X|[X _]]; try congruence; apply I2; exact X.
  - exfalso. rewrite map_app in A. cbn in A. inversion A as [E|l0 q0 A1 A2 E]; [destruct (map _ h); discriminate|].
    apply app_inj_tail in E as [-> ->]. destruct (IH A1) as [I1 I2]. destruct N as (r & fd & S & D).
    apply I2 in D. assert (X : apart r q) by (apply A2; change r with (fst (fst (r, LeafDir fd, true))); apply (in_map (fun e => fst (fst e))); exact D).
    destruct X as [X _]. rewrite (strict_is_prefix _ _ S) in X. discriminate.
Qed.

Lemma combine_true {A} (l : list A) (b : list bool) : length b = length l -> (forall e, In e (combine l b) -> snd e = true) -> b = map (fun _ => true) l.
Proof.
  revert b. induction l as [|a l IH]; intros [|x b] L H; try discriminate; auto. cbn in *. f_equal.
  - apply (H (a, x)). auto.
  - apply IH; auto.
Qed.
(** Exports that do not meet are all accepted and all there is. *)
Theorem apart_exports_all calls : host_calls calls -> all_apart (map fst calls) ->
  exists t, run_host calls = Ret (map (fun _ => true) calls, t) /\
  forall a cs fd tail, lookup_file t (mkPath a cs) = Some (fd, tail) <->
    is_abs tail = false /\
    ((comps tail = [] /\ In (cs, LeafFile fd) calls) \/
     (comps tail <> [] /\ exists q, cs = q ++ comps tail /\ In (q, LeafDir fd) calls)).
Proof.
  intros HC AP. destruct (filetree_refines_export_history calls HC) as (oks & t & v & R & L & H & K).
  assert (M : map (fun e : list text * leaf * bool => fst (fst e)) (combine calls oks) = map fst calls).
  { clear -L. revert oks L. induction calls as [|c calls IH]; intros [|o oks] L; try discriminate; auto. cbn in *. f_equal. apply IH. lia. }
  rewrite <- M in AP. destruct (history_apart _ _ H AP) as [T V]. pose proof (combine_true calls oks L T) as E.
  exists t. split; [rewrite R, E; auto|]. intros a cs fd tail. rewrite K.
  assert (IC : forall q l, In (q, l, true) (combine calls oks) <-> In (q, l) calls).
  { intros q l. rewrite E. clear. induction calls as [|c calls IH]; [reflexivity|]. cbn. rewrite IH.
    split; intros [X|X]; auto; left; [injection X as -> ; auto|rewrite X; auto]. }
  split; intros [X [[Y Z]|[Y Z]]]; split; auto.
  - left. split; auto. apply IC, V. auto.
  - right. split; auto. destruct Z as (q & Z1 & Z2). exists q. split; auto. apply IC, V. auto.
  - left. split; auto. apply V, IC. auto.
  - right. split; auto. destruct Z as (q & Z1 & Z2). exists q. split; auto. apply V, IC. auto.
Qed.
Print Assumptions apart_exports_all.

(** The names under which a new library finds its run-time files. *)
Definition lib_names : list (list text) := [[tx "lib"]; [tx "usr"; tx "lib"]; [tx "usr"; tx "local"; tx "lib"]].
Definition cache_name : list text := [tx "etc"; tx "ld.so.cache"].
Definition default_calls (opens : text -> Z) : list (list text * leaf) :=
  filter (fun c => match snd c with LeafDir fd | LeafFile fd => 0 <? fd end)
    (map (fun q => (q, LeafDir (opens (raw_path q)))) lib_names ++ [(cache_name, LeafFile (opens (raw_path cache_name)))]).
Definition forgotten (opens : text -> Z) : list Z :=
  map (fun _ => 0) (filter (fun p => opens p =? 0) (map raw_path (lib_names ++ [cache_name]))).
(** What open(2) may answer. *)
Definition answers (opens : text -> Z) : Prop := forall p, -1 <= opens p.

Lemma default_good opens : host_calls (default_calls opens).
Proof.
  unfold host_calls, default_calls. apply Forall_forall. intros c X. apply filter_In in X as [X _].
  cbn in X. repeat destruct X as [<-|X]; [..|destruct X];
    (split; [split; [discriminate|repeat (constructor; [apply no_slash_dec; reflexivity|]); constructor]|reflexivity]).
Qed.
Lemma run_adds_app cs ds d : run_adds d (cs ++ ds) =
  obind (run_adds d cs) (fun x => obind (run_adds (snd x) ds) (fun y => Ret (fst x ++ fst y, snd y))).
Proof.
  revert d. induction cs as [|c cs IH]; intros d; cbn [app run_adds].
  - cbn. destruct (run_adds d ds) as [[? ?]| | | |]; auto.
  - destruct (add_call d c) as [[b1 d1]| | | |]; auto. cbn [obind snd fst]. rewrite IH.
    destruct (run_adds d1 cs) as [[b2 d2]| | | |]; auto. cbn [obind snd fst].
    destruct (run_adds d2 ds) as [[b3 d3]| | | |]; auto.
Qed.
Lemma export_default_run opens d p l : -1 <= opens p ->
  export_default opens d p l =
  obind (run_adds d (if 0 <? opens p then [(p, l (opens p))] else [])) (fun x =>
  Ret (snd x, if opens p =? 0 then [0] else [])).
Proof.
  intros A. unfold export_default. destruct (Z.ltb_spec 0 (opens p)) as [B|B].
  - cbn [run_adds]. destruct (add_call d (p, l (opens p))) as [[]| | | |]; auto. cbn. destruct (Z.eqb_spec (opens p) 0); [lia|auto].
  - cbn. destruct (Z.eqb_spec (opens p) 0) as [E|E]; destruct (Z.eqb_spec (opens p) (-1)); try lia; rewrite ?E; auto.
Qed.
Lemma run_adds_nil d : run_adds d [] = Ret ([], d). Proof. auto. Qed.
(** The constructor is that list of exports. *)
Lemma dispatcher_runs opens : answers opens ->
  dispatcher_tree opens = obind (run_host (default_calls opens)) (fun x => Ret (snd x, forgotten opens)).
Proof.
  intros A. unfold dispatcher_tree, libdirs. cbn [export_dirs]. unfold run_host, default_calls, forgotten.
  change (map raw_path (lib_names ++ [cache_name])) with [tx "/lib"; tx "/usr/lib"; tx "/usr/local/lib"; ldsocache].
  unfold lib_names. cbn [map app filter snd fst].
  change (raw_path [tx "lib"]) with (tx "/lib"). change (raw_path [tx "usr"; tx "lib"]) with (tx "/usr/lib").
  change (raw_path [tx "usr"; tx "local"; tx "lib"]) with (tx "/usr/local/lib"). change (raw_path cache_name) with ldsocache.
  assert (G : forall (b : bool) (q : list text) (l : leaf) r,
    map (fun c : list text * leaf => (raw_path (fst c), snd c)) (if b then (q, l) :: r else r) =
    (if b then [(raw_path q, l)] else []) ++ map (fun c : list text * leaf => (raw_path (fst c), snd c)) r) by (intros []; auto).
  rewrite !G. cbn [map]. rewrite app_nil_r.
  change (raw_path [tx "lib"]) with (tx "/lib"). change (raw_path [tx "usr"; tx "lib"]) with (tx "/usr/lib").
  change (raw_path [tx "usr"; tx "local"; tx "lib"]) with (tx "/usr/local/lib"). change (raw_path cache_name) with ldsocache.
  generalize (tx "/lib"), (tx "/usr/lib"), (tx "/usr/local/lib"), ldsocache. intros p1 p2 p3 p4.
  rewrite run_adds_app, (export_default_run _ _ p1) by apply A.
  destruct (run_adds [] (if 0 <? opens p1 then _ else _)) as [[o1 d1]| | | |]; auto. cbn [obind fst snd].
  rewrite run_adds_app, (export_default_run _ _ p2) by apply A.
  destruct (run_adds _ (if 0 <? opens p2 then _ else _)) as [[o2 d2]| | | |]; auto. cbn [obind fst snd].
  rewrite run_adds_app, (export_default_run _ _ p3) by apply A.
  destruct (run_adds _ (if 0 <? opens p3 then _ else _)) as [[o3 d3]| | | |]; auto. cbn [obind fst snd].
  rewrite (export_default_run _ _ p4) by apply A.
  destruct (run_adds _ (if 0 <? opens p4 then _ else _)) as [[o4 d4]| | | |]; auto. cbn [obind fst snd filter].
  destruct (opens p1 =? 0), (opens p2 =? 0), (opens p3 =? 0), (opens p4 =? 0); reflexivity.
Qed.
Lemma all_apart_filter {A} (f : A -> list text) g l : all_apart (map f l) -> all_apart (map f (filter g l)).
Proof.
  remember (map f l) as m. intros H. revert l Heqm. induction H as [|m q H IH N]; intros l E.
  - destruct l; [constructor|discriminate].
  - destruct l as [|x l _] using rev_ind; [destruct m; discriminate|]. rewrite map_app in E. cbn in E.
    apply app_inj_tail in E as [-> ->]. rewrite filter_app, map_app. cbn [filter]. destruct (g x).
    + cbn [map]. constructor; auto. intros r R. apply N. apply in_map_iff in R as (y & <- & Y). apply filter_In in Y. apply in_map. tauto.
    + cbn. rewrite app_nil_r. auto.
Qed.
Lemma default_apart opens : all_apart (map fst (default_calls opens)).
Proof.
  unfold default_calls. apply all_apart_filter. cbn [map app lib_names fst].
  apply (apart_snoc [[tx "lib"]; [tx "usr"; tx "lib"]; [tx "usr"; tx "local"; tx "lib"]]).
  2:{ cbn. intros r R. repeat destruct R as [<-|R]; [..|destruct R]; split; reflexivity. }
  apply (apart_snoc [[tx "lib"]; [tx "usr"; tx "lib"]]).
  2:{ cbn. intros r R. repeat destruct R as [<-|R]; [..|destruct R]; split; reflexivity. }
  apply (apart_snoc [[tx "lib"]]).
  2:{ cbn. intros r R. repeat destruct R as [<-|R]; [..|destruct R]; split; reflexivity. }
  apply (apart_snoc []); [constructor|intros r []].
Qed.

(** C55.  What a new library lets its sandbox name: the loader's cache, and
    everything strictly below the three library directories, as far as opening
    them gave a positive descriptor.  Nothing else. *)
Theorem new_library_exports opens : answers opens ->
  exists t, dispatcher_tree opens = Ret (t, forgotten opens) /\
  forall a cs fd tail, lookup_file t (mkPath a cs) = Some (fd, tail) <->
    is_abs tail = false /\ 0 < fd /\
    ((cs = [tx "etc"; tx "ld.so.cache"] /\ comps tail = [] /\ fd = opens (tx "/etc/ld.so.cache")) \/
     (comps tail <> [] /\
      ((cs = tx "lib" :: comps tail /\ fd = opens (tx "/lib")) \/
       (cs = tx "usr" :: tx "lib" :: comps tail /\ fd = opens (tx "/usr/lib")) \/
       (cs = tx "usr" :: tx "local" :: tx "lib" :: comps tail /\ fd = opens (tx "/usr/local/lib"))))).
Proof.
  intros A. rewrite (dispatcher_runs _ A).
  destruct (apart_exports_all _ (default_good opens) (default_apart opens)) as (t & R & K). exists t. rewrite R. split; [reflexivity|].
  intros a cs fd tail. rewrite K. unfold default_calls.
  assert (F : forall q, In (q, LeafFile fd) (default_calls opens) <-> 0 < fd /\ q = cache_name /\ fd = opens ldsocache).
  { intros q. unfold default_calls. rewrite filter_In. cbn [In map app lib_names snd]. rewrite Z.ltb_lt. split.
    - intros [X Y]. repeat destruct X as [X|X]; try discriminate; [|destruct X].
      apply pair_equal_spec in X as [<- X]. injection X as <-. auto.
    - intros (X & -> & E). split; auto. rewrite E. tauto. }
  assert (D : forall q, In (q, LeafDir fd) (default_calls opens) <-> 0 < fd /\ In q lib_names /\ fd = opens (raw_path q)).
  { intros q. unfold default_calls. rewrite filter_In. cbn [In map app lib_names snd]. rewrite Z.ltb_lt. split.
    - intros [X Y]. repeat destruct X as [X|X]; try discriminate; [..|destruct X];
        apply pair_equal_spec in X as [<- X]; injection X as <-; cbn [In lib_names]; auto 10.
    - intros (X & I & E). split; auto. rewrite E. destruct I as [<-|[<-|[<-|[]]]]; auto. }
  split.
  - intros [X [[Y Z]|[Y (q & -> & Z)]]]; (split; [exact X|]).
    + apply F in Z as (Z1 & -> & Z2). auto.
    + apply D in Z as (Z1 & Z3 & Z2). split; auto. right. split; auto. destruct Z3 as [<-|[<-|[<-|[]]]]; auto.
  - intros (X & P & [(-> & Y & Z)|(Y & Z)]); (split; [exact X|]).
    + left. split; auto. apply F. auto.
    + right. split; auto. destruct Z as [[-> Z]|[[-> Z]|[-> Z]]].
      * exists [tx "lib"]. split; auto. apply D. split; [exact P|]. split; [cbn [In lib_names]; auto 10|exact Z].
      * exists [tx "usr"; tx "lib"]. split; auto. apply D. split; [exact P|]. split; [cbn [In lib_names]; auto 10|exact Z].
      * exists [tx "usr"; tx "local"; tx "lib"]. split; auto. apply D. split; [exact P|]. split; [cbn [In lib_names]; auto 10|exact Z].
Qed.
Print Assumptions new_library_exports.

(** C55.  The host's own exports follow the default ones: the tree is that of
    one list of calls, so what is said of every such list (C04-C07, C22-C25)
    holds of a library's tree. *)
Theorem library_tree_is_history opens user : answers opens -> host_calls user ->
  host_calls (default_calls opens ++ user) /\
  exists t oks t', dispatcher_tree opens = Ret (t, forgotten opens) /\
    run_adds t (map (fun c => (raw_path (fst c), snd c)) user) = Ret (oks, t') /\
    run_host (default_calls opens ++ user) = Ret (map (fun _ => true) (default_calls opens) ++ oks, t').
Proof.
  intros A U. assert (H : host_calls (default_calls opens ++ user)) by (apply Forall_app; split; [apply default_good|exact U]).
  split; [exact H|].
  destruct (apart_exports_all _ (default_good opens) (default_apart opens)) as (t & R & _).
  destruct (filetree_refines_export_history _ H) as (oks & t' & v & R' & _).
  rewrite (dispatcher_runs _ A), R. unfold run_host in *. rewrite map_app, run_adds_app, R in R'. cbn [obind snd fst] in R'.
  destruct (run_adds t _) as [[o1 t1]| | | |] eqn:E; try discriminate. exists t, o1, t1. cbn [obind fst snd].
  rewrite map_app, run_adds_app, R. cbn [obind snd fst]. rewrite E. auto.
Qed.
Print Assumptions library_tree_is_history.

(** C55.  Seen from the sandbox: with no export by the host, every open it asks
    for is refused, or duplicates the cache's descriptor for its exact name, or
    resolves a path strictly below one of the three directories. *)
Theorem new_library_open_confined opens shm size hdr k rd in_path flags mode :
  answers opens -> mapping_ok shm size hdr -> is_word in_path ->
  let h := library_heap shm size hdr in
  exists t res ops, dispatcher_tree opens = Ret (t, forgotten opens) /\
  handle_open k t h rd true in_path flags mode [] = Ret (res, ops) /\
  (ops = [] /\ (res = Result (-22) None \/ res = Result (-2) None) \/
   (request_names (shm + 2 * hdr) (shm + size) rd in_path [tx "etc"; tx "ld.so.cache"] /\ ops = [KDup (opens (tx "/etc/ld.so.cache"))]) \/
   (exists q tail p, In q [[tx "lib"]; [tx "usr"; tx "lib"]; [tx "usr"; tx "local"; tx "lib"]] /\
      request_names (shm + 2 * hdr) (shm + size) rd in_path (q ++ tail) /\ beneath_path p tail /\
      ops = [KOpenat2 (opens (raw_path q)) (Some p) (wrap flags) mode 8])).
Proof.
  intros A M W h. destruct (apart_exports_all _ (default_good opens) (default_apart opens)) as (t & R & _).
  destruct (fs_open_confined _ _ _ shm size hdr k rd in_path flags mode (default_good opens) R M W) as (res & ops & E & X).
  exists t, res, ops. rewrite (dispatcher_runs _ A), R. split; [reflexivity|]. split; [exact E|].
  assert (I : forall e, In e (combine (default_calls opens) (map (fun _ => true) (default_calls opens))) -> In (fst e) (default_calls opens)).
  { intros [e b] Y. apply in_combine_l in Y. exact Y. }
  destruct X as [[-> X]|[(q & fd & (v & Hv & X) & Y & Z & _)|(q & fd & tail & p & (v & Hv & X) & Y & Z & O & _)]].
  1:{ left. split; [reflexivity|]. destruct X as [[-> _]|[-> _]]; auto. }
  all: right.
  - left. apply (proj1 (history_source _ _ Hv)) in X. apply I in X. cbn [fst] in X. unfold default_calls in X. apply filter_In in X as [X _]. cbn [In map app lib_names] in X.
    repeat destruct X as [X|X]; try discriminate; [|destruct X]. apply pair_equal_spec in X as [<- X]. injection X as <-. auto.
  - right. apply (proj2 (history_source _ _ Hv)) in X. apply I in X. cbn [fst] in X. unfold default_calls in X. apply filter_In in X as [X _]. cbn [In map app lib_names] in X.
    exists q, tail, p.
    repeat destruct X as [X|X]; try discriminate; [..|destruct X];
      apply pair_equal_spec in X as [<- X]; injection X as <-; cbn; auto 10.
Qed.
Print Assumptions new_library_open_confined.

(** C55, a limit: a host that runs with descriptor 0 closed gets 0 from the
    first open that succeeds.  That descriptor is neither exported nor closed. *)
Theorem descriptor_zero_forgotten opens : answers opens -> opens (tx "/lib") = 0 ->
  exists t l, dispatcher_tree opens = Ret (t, 0 :: l) /\ forall a r, lookup_file t (mkPath a (tx "lib" :: r)) = None.
Proof.
  intros A Z. destruct (new_library_exports opens A) as (t & R & K). exists t.
  eexists. rewrite R. unfold forgotten. cbn [lib_names map app filter]. change (raw_path [tx "lib"]) with (tx "/lib"). rewrite Z.
  cbn [Z.eqb map]. split; [reflexivity|]. intros a r. destruct (lookup_file t (mkPath a (tx "lib" :: r))) as [[fd tail]|] eqn:E; auto.
  apply K in E as (_ & P & [(X & _)|(_ & [(X & Y)|[(X & _)|(X & _)]])]); try discriminate. lia.
Qed.
Print Assumptions descriptor_zero_forgotten.

(** A case: no /usr/local/lib. *)
Definition demo_opens (p : text) : Z :=
  if text_eq_dec p (tx "/lib") then 4 else if text_eq_dec p (tx "/usr/lib") then 5
  else if text_eq_dec p (tx "/etc/ld.so.cache") then 6 else -1.
Example ctor_ex_answers : answers demo_opens.
Proof. intros p. unfold demo_opens. repeat destruct text_eq_dec; lia. Qed.
Example ctor_ex : exists t, dispatcher_tree demo_opens = Ret (t, []) /\
  lookup_file t (mkPath true [tx "usr"; tx "lib"; tx "libz.so"]) = Some (5, mkPath false [tx "libz.so"]) /\
  lookup_file t (mkPath true [tx "usr"; tx "local"; tx "lib"; tx "libz.so"]) = None /\
  lookup_file t (mkPath true [tx "etc"; tx "ld.so.cache"]) = Some (6, empty_path) /\
  lookup_file t (mkPath true [tx "etc"; tx "passwd"]) = None.
Proof. eexists. split; [reflexivity|]. repeat split. Qed.

(** C56.  dirname, as the standard has it. *)
Definition slashes (t : text) : Prop := Forall (fun c => c = slash) t.
Definition a_name (t : text) : Prop := t <> [] /\ no_slash t.

Lemma strip_slashes s t : slashes s -> strip (s ++ t) = strip t.
Proof. induction 1 as [|c s -> H IH]; [reflexivity|exact IH]. Qed.
Lemma slashes_rev s : slashes s -> slashes (rev s). Proof. apply Forall_rev. Qed.
Lemma strip_name n t : a_name n -> strip (rev n ++ t) = rev n ++ t.
Proof.
  intros [N S]. destruct (rev n) as [|c r] eqn:E; [apply (f_equal (@rev _)) in E; rewrite rev_involutive in E; contradiction|].
  cbn. destruct (ascii_dec c slash) as [->|]; auto. exfalso. apply S. apply in_rev. rewrite E. left. reflexivity.
Qed.
Lemma drop_name_name n t : no_slash n -> drop_name (rev n ++ t) = drop_name t.
Proof.
  intros S. assert (H : forall x, In x (rev n) -> x <> slash) by (intros x X ->; apply S, in_rev; auto).
  clear S. induction (rev n) as [|c r IH]; auto. cbn. destruct (ascii_dec c slash) as [E|]; [destruct (H c); [left; auto|auto]|].
  apply IH. intros x X. apply H. right. auto.
Qed.
Lemma strip_all s : slashes s -> strip s = [].
Proof. intros H. rewrite <- (app_nil_r s), strip_slashes; auto. Qed.
Lemma rev_nonempty (n : text) : n <> [] -> rev n <> [].
Proof. intros H E. apply H. rewrite <- (rev_involutive n), E. reflexivity. Qed.
Lemma dirname_of dir s name e : a_name name -> slashes s -> slashes e -> s <> [] ->
  dirname (dir ++ s ++ name ++ e) = match strip (rev dir) with [] => tx "/" | d => rev d end.
Proof.
  intros N S E X. unfold dirname. rewrite !rev_app_distr, <- !app_assoc.
  rewrite (strip_slashes (rev e)) by (apply slashes_rev; auto).
  rewrite strip_name by auto. rewrite drop_name_name by apply N.
  pose proof (rev_nonempty _ (proj1 N)) as Y. destruct (rev name) as [|c r]; [contradiction|]. cbn [app].
  apply slashes_rev in S. apply rev_nonempty in X.
  rewrite <- (strip_slashes (rev s) (rev dir) S). destruct S as [|c' s' -> S]; [contradiction|]. cbn [app drop_name].
  destruct (ascii_dec slash slash); [|congruence]. reflexivity.
Qed.

Definition no_last_slash (t : text) : Prop := forall u, t <> u ++ [slash].
(** C56.  A name in a directory: the directory. *)
Theorem dirname_in_directory dir s name e :
  a_name name -> slashes s -> slashes e -> s <> [] -> dir <> [] -> no_last_slash dir ->
  dirname (dir ++ s ++ name ++ e) = dir.
Proof.
  intros N S E X D L. rewrite dirname_of by auto.
  destruct (rev dir) as [|c r] eqn:R; [destruct (rev_nonempty dir); auto|]. cbn [strip].
  assert (dir = rev r ++ [c]) by (rewrite <- (rev_involutive dir), R; reflexivity).
  destruct (ascii_dec c slash) as [->|]; [destruct (L (rev r)); auto|]. auto.
Qed.
Print Assumptions dirname_in_directory.
Theorem dirname_in_root s name e : a_name name -> slashes s -> slashes e -> s <> [] -> dirname (s ++ name ++ e) = tx "/".
Proof. intros. exact (dirname_of [] s name e ltac:(auto) ltac:(auto) ltac:(auto) ltac:(auto)). Qed.
Print Assumptions dirname_in_root.
Theorem dirname_bare name e : a_name name -> slashes e -> dirname (name ++ e) = tx ".".
Proof.
  intros N E. unfold dirname. rewrite rev_app_distr, strip_slashes by (apply slashes_rev; auto).
  rewrite <- (app_nil_r (rev name)), strip_name by auto. rewrite drop_name_name by apply N.
  pose proof (rev_nonempty _ (proj1 N)) as Y. destruct (rev name); [contradiction|]. reflexivity.
Qed.
Print Assumptions dirname_bare.

(** C56.  Which files are run: the runner is library_runner in the directory of
    the file that holds libsandbox; a library named by an absolute path is that
    path, one named otherwise is looked for in that same directory and nowhere
    else (the working directory and the search path play no part). *)
Theorem library_and_runner dir s name lib :
  a_name name -> slashes s -> s <> [] -> dir <> [] -> no_last_slash dir ->
  resolve (Some (dir ++ s ++ name)) lib =
    (if (match lib with c :: _ => if ascii_dec c slash then true else false | [] => false end)
     then lib else dir ++ [slash] ++ lib, dir ++ tx "/library_runner").
Proof.
  intros N S X D L. unfold resolve. assert (E : dirname (dir ++ s ++ name) = dir).
  { rewrite <- (app_nil_r name). apply dirname_in_directory; auto. constructor. }
  rewrite E. destruct lib as [|c r]; [reflexivity|]. destruct (ascii_dec c slash); reflexivity.
Qed.
Print Assumptions library_and_runner.

(** C56, a limit: if the file of libsandbox is known only by a bare name or not at
    all, the runner is taken from the working directory of the host. *)
Theorem runner_from_working_directory here lib :
  (here = None \/ exists n, here = Some n /\ a_name n) -> snd (resolve here lib) = tx "./library_runner".
Proof.
  intros [->|(n & -> & N)]; unfold resolve; [reflexivity|]. assert (E : dirname n = tx ".").
  { rewrite <- (app_nil_r n). apply dirname_bare; auto. constructor. }
  rewrite E. reflexivity.
Qed.
Print Assumptions runner_from_working_directory.

Example resolve_ex : resolve (Some (tx "/opt/sb//libsandbox.so")) (tx "libz.so") =
  (tx "/opt/sb/libz.so", tx "/opt/sb/library_runner").
Proof. reflexivity. Qed.
Example resolve_hyps : a_name (tx "libsandbox.so") /\ slashes (tx "//") /\ tx "/opt/sb" <> [] /\ no_last_slash (tx "/opt/sb").
Proof.
  repeat split; try discriminate; try (apply no_slash_dec; reflexivity); [repeat constructor|].
  intros u E. apply (f_equal (@rev _)) in E. rewrite rev_app_distr in E. discriminate.
Qed.
