(** Theorems about sandbox::ExportedFileTree (properties C04-C07). *)
From Coq Require Import String Ascii List ZArith Bool Lia.
From Verif Require Import Base PathModel PathSpec FileTreeModel FileTreeSpec FileTreeProof.
Import ListNotations.
Local Open Scope Z_scope.

(** Host programs considered: any list of add_file/add_directory calls whose
    paths are absolute ("/" followed by '/'-separated names) and shorter than
    std::string::npos. *)
Definition host_calls (calls : list (list text * leaf)) : Prop :=
  Forall (fun c => good_names (fst c) /\ zlen (raw_path (fst c)) < npos) calls.

Definition run_host (calls : list (list text * leaf)) : outcome (list bool * dir) :=
  run_adds [] (map (fun c => (raw_path (fst c), snd c)) calls).

(** C04.  After any such program the results of the add calls and of every
    lookup are those of the abstract export history: an exported file is
    returned with an empty remainder, a request below an exported directory
    returns that directory and the remaining names, nothing else resolves. *)
Theorem filetree_refines_export_history :
  forall calls, host_calls calls ->
  exists oks t v,
    run_host calls = Ret (oks, t) /\
    length oks = length calls /\
    history (combine calls oks) v /\
    forall a cs fd tail,
      lookup_file t (mkPath a cs) = Some (fd, tail) <->
      is_abs tail = false /\
      ((comps tail = [] /\ v cs = AFile fd) \/
       (comps tail <> [] /\ exists q, cs = q ++ comps tail /\ v q = ADir fd)).
Proof. exact lookup_refines. Qed.
Print Assumptions filetree_refines_export_history.

(** C05.  Whatever a lookup returns was exported by an accepted call at a
    path that is a prefix of the request; the remainder is the rest. *)
Theorem filetree_lookup_confined :
  forall calls oks t a cs fd tail,
  host_calls calls ->
  run_host calls = Ret (oks, t) ->
  lookup_file t (mkPath a cs) = Some (fd, tail) ->
  exists q, cs = q ++ comps tail /\ is_abs tail = false /\
    ((comps tail = [] /\ In (q, LeafFile fd, true) (combine calls oks)) \/
     (comps tail <> [] /\ In (q, LeafDir fd, true) (combine calls oks))).
Proof. exact lookup_confined. Qed.
Print Assumptions filetree_lookup_confined.

(** C05.  For a canonical request the remainder has no ".." and no empty
    component either. *)
Theorem filetree_remainder_clean :
  forall t a cs fd tail,
  clean cs -> lookup_file t (mkPath a cs) = Some (fd, tail) ->
  is_abs tail = false /\ clean (comps tail).
Proof.
  intros t a cs fd tail Hc H. apply lookup_some in H as (Ha & [(He & _)|(_ & q & -> & _)]).
  - rewrite He. split; [auto|constructor].
  - apply Forall_app in Hc. split; [auto|apply Hc].
Qed.
Print Assumptions filetree_remainder_clean.

(** C06.  In any tree, an add is refused iff the path lies below an exported
    directory (so that looking the path up returns that directory with a
    non-empty remainder); a refused add leaves the tree as it was. *)
Theorem filetree_add_refused_iff_below_directory :
  forall d q l, good_names q -> zlen (raw_path q) < npos ->
  ((exists fd tail, lookup_file d (mkPath true q) = Some (fd, tail) /\ comps tail <> []) /\
   add_call d (raw_path q, l) = Ret (false, d)) \/
  (~ (exists fd tail, lookup_file d (mkPath true q) = Some (fd, tail) /\ comps tail <> []) /\
   exists d', add_call d (raw_path q, l) = Ret (true, d')).
Proof.
  intros d q l Hg Hl. rewrite <- (below_exported_dir_lookup d true q).
  apply add_call_cases; auto.
Qed.
Print Assumptions filetree_add_refused_iff_below_directory.

(** C06.  An accepted add makes exactly the new path resolvable and keeps all
    lookups that neither pass through it nor stop above it. *)
Theorem filetree_accepted_add :
  forall d q l d', good_names q -> zlen (raw_path q) < npos ->
  add_call d (raw_path q, l) = Ret (true, d') ->
  (forall fd a, l = LeafFile fd -> lookup_file d' (mkPath a q) = Some (fd, empty_path)) /\
  (forall fd a t, l = LeafDir fd -> t <> [] ->
     lookup_file d' (mkPath a (q ++ t)) = Some (fd, path_of_range t)) /\
  (forall a p, is_prefix q p = false -> is_prefix p q = false ->
     lookup_file d' (mkPath a p) = lookup_file d (mkPath a p)) /\
  (forall a p, strict_prefix p q = true -> lookup_file d' (mkPath a p) = None) /\
  (forall fd a t, l = LeafFile fd -> t <> [] -> lookup_file d' (mkPath a (q ++ t)) = None).
Proof. exact accepted_add_lookups. Qed.
Print Assumptions filetree_accepted_add.

(** C06.  Every non-empty text is handled without exception; the empty text
    throws std::out_of_range. *)
Theorem filetree_add_total :
  forall d p l, p <> [] -> zlen p < npos -> exists ok d', add_handle d p l = Ret (ok, d').
Proof. exact add_handle_total. Qed.
Print Assumptions filetree_add_total.

Theorem filetree_add_empty_throws : forall d l, add_handle d [] l = Throws.
Proof. exact add_handle_empty. Qed.
Print Assumptions filetree_add_empty_throws.

Definition demo_calls : list (list text * leaf) :=
  [ ([tx "etc"; tx "hosts"], LeafFile 10);
    ([tx "usr"; tx "lib"], LeafDir 11);
    ([tx "usr"; tx "lib"; tx "x"], LeafFile 12);
    ([tx "etc"], LeafFile 13);
    ([tx "etc"; tx "passwd"], LeafFile 14) ].

Lemma no_slash_dec t : (if in_dec ascii_dec slash t then false else true) = true -> no_slash t.
Proof. destruct (in_dec ascii_dec slash t); [discriminate|auto]. Qed.

Example filetree_ex_calls : host_calls demo_calls.
Proof.
  repeat constructor; cbn; try discriminate; try reflexivity; apply no_slash_dec; reflexivity.
Qed.

Example filetree_ex_run :
  exists t, run_host demo_calls = Ret ([true; true; false; true; true], t) /\
    lookup_file t (mkPath true [tx "usr"; tx "lib"; tx "a"; tx "b"])
      = Some (11, mkPath false [tx "a"; tx "b"]) /\
    lookup_file t (mkPath true [tx "etc"; tx "passwd"]) = Some (14, empty_path) /\
    lookup_file t (mkPath true [tx "etc"; tx "hosts"]) = None /\
    lookup_file t (mkPath true [tx "usr"; tx "lib"]) = None.
Proof. eexists. split; [reflexivity|]. repeat split. Qed.

(** C07.  Limits. *)

(** A one-component path without leading '/' is stored in a directory named
    after it minus its first byte, and does not resolve under its own name. *)
Theorem filetree_relative_name_misfiled :
  forall c t fd, no_slash (c :: t) -> zlen (c :: t) < npos ->
  exists d', add_call [] (c :: t, LeafFile fd) = Ret (true, d') /\
    lookup_file d' (mkPath true [c :: t]) = None /\
    lookup_file d' (mkPath true [t; c :: t]) = Some (fd, empty_path).
Proof. exact relative_name_misfiled. Qed.
Print Assumptions filetree_relative_name_misfiled.

(** With a later '/', the first byte is simply ignored, whatever it is. *)
Theorem filetree_first_byte_ignored :
  forall d c t l, In slash t -> zlen (c :: t) < npos ->
  add_handle d (c :: t) l = add_handle d (slash :: t) l.
Proof. exact add_handle_first_char. Qed.
Print Assumptions filetree_first_byte_ignored.

(** The documentation (filetree.h 294-300) says that a part represented by a
    directory handle cannot be replaced by a virtual tree; it can. *)
Theorem filetree_directory_not_replaceable_refuted :
  exists calls t, host_calls calls /\
    run_host calls = Ret ([true; true; true], t) /\
    In ([tx "d"], LeafDir 20) calls /\
    lookup_file t (mkPath true [tx "d"; tx "x"]) = Some (22, empty_path).
Proof.
  exists [([tx "d"], LeafDir 20); ([tx "d"], LeafFile 21); ([tx "d"; tx "x"], LeafFile 22)].
  eexists. split.
  - repeat constructor; cbn; try discriminate; try reflexivity; apply no_slash_dec; reflexivity.
  - split; [reflexivity|]. split; [now left|reflexivity].
Qed.
Print Assumptions filetree_directory_not_replaceable_refuted.

(** An exported directory cannot be looked up by its own path: in every tree
    built by a host program, if a request resolves at all to a directory
    handle then with a non-empty remainder. *)
Theorem filetree_directory_itself_not_found :
  forall d q fd d' a, good_names q -> zlen (raw_path q) < npos ->
  add_call d (raw_path q, LeafDir fd) = Ret (true, d') ->
  lookup_file d' (mkPath a q) = None.
Proof.
  intros d q fd d' a Hg Hl H.
  destruct (add_handle_effect _ _ _ _ Hg Hl H) as [Hb Hv].
  destruct (lookup_file d' (mkPath a q)) as [[fd' tail]|] eqn:E; auto.
  apply lookup_some in E as (_ & [(_ & Hn)|(Hne & r & Hq & Hn)]).
  - rewrite Hv in Hn. unfold exported in Hn.
    destruct (names_eq_dec q q); [discriminate Hn|congruence].
  - assert (Hs : strict_prefix r q = true).
    { apply strict_prefix_spec. destruct (comps tail) as [|x u]; [congruence|eauto]. }
    rewrite Hv in Hn. unfold exported in Hn.
    destruct (names_eq_dec r q) as [->|]; [|rewrite Hs in Hn; discriminate].
    apply (f_equal (@length _)) in Hq. rewrite app_length in Hq.
    destruct (comps tail); [congruence|]. cbn in Hq. lia.
Qed.
Print Assumptions filetree_directory_itself_not_found.
