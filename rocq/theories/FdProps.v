(** The claimed theorems about the sandbox's descriptors (C38), its pagemap
    descriptor (C39) and what starting a sandbox leaves in the host (C51). *)
From Coq Require Import List ZArith Bool Lia Arith.
From Verif Require Import Base FdModel FdSpec FdProof.
Import ListNotations.
Open Scope Z_scope.

(** C38. Whatever numbers the host's descriptors have and whatever else it has
    open, the sandbox starts with the documented layout: 3 to 7 as documented,
    nothing from 8 up, and the host's standard descriptors unchanged.  The
    number of dup attempts is bounded (any fuel above 10 gives this result). *)
Theorem child_descriptor_layout debug limit fuel pagemap lib reopen h t p :
  host_has t pagemap h p -> room limit t -> (10 < fuel)%nat ->
  exists t' h', start_child debug fuel limit pagemap (Some lib) reopen h t = Ret (Started t' h')
    /\ layout t t' p lib (if reopen then false else writable (p_pagemap p)).
Proof.
  intros H R F. destruct (start_ok debug limit fuel pagemap lib reopen h t p H R F) as (t5 & t' & E & G & L & _).
  exists t'. eexists. split; [exact E|]. unfold layout. rewrite !L. cbn.
  split; [auto|]. split; [auto|]. split; [auto|]. split; [auto|]. split; [auto|]. split.
  - intros n N. rewrite L. destruct (Z.eqb_spec n 3), (Z.eqb_spec n 4), (Z.eqb_spec n 5), (Z.eqb_spec n 6), (Z.eqb_spec n 7),
      (Z.ltb_spec n 8); try lia. auto.
  - intros n d N D. rewrite L, (grows_get _ _ _ _ _ G D).
    destruct (Z.eqb_spec n 3), (Z.eqb_spec n 4), (Z.eqb_spec n 5), (Z.eqb_spec n 6), (Z.eqb_spec n 7),
      (Z.ltb_spec n 8); try lia. auto.
Qed.

(** C38. Nothing else gets through: every descriptor the sandbox starts with is
    one of the five it was given or one of the host's three standard
    descriptors. *)
Theorem child_gets_nothing_else debug limit fuel pagemap lib reopen h t p t' h' n d :
  host_has t pagemap h p -> room limit t -> (10 < fuel)%nat ->
  start_child debug fuel limit pagemap (Some lib) reopen h t = Ret (Started t' h') -> get t' n = Some d ->
  0 <= n < 8 /\ (In (file d) [file (p_shm p); file (p_pagemap p); file (p_sock p); file (p_rpc p); file lib]
                 \/ n <= 2 /\ get t n = Some d).
Proof.
  intros H R F E D. destruct (start_ok debug limit fuel pagemap lib reopen h t p H R F) as (t5 & t2 & E2 & G & L & _).
  rewrite E2 in E. injection E as <- <-. pose proof (get_pos _ _ _ D) as P. rewrite L in D. cbn [In].
  destruct (Z.eqb_spec n 3); [injection D as <-; cbn; split; [lia|tauto]|].
  destruct (Z.eqb_spec n 4); [injection D as <-; cbn; split; [lia|tauto]|].
  destruct (Z.eqb_spec n 5); [injection D as <-; cbn; split; [lia|tauto]|].
  destruct (Z.eqb_spec n 6); [injection D as <-; cbn; split; [lia|tauto]|].
  destruct (Z.eqb_spec n 7); [injection D as <-; cbn; split; [lia|tauto]|].
  destruct (Z.ltb_spec n 8); [|discriminate]. split; [lia|].
  destruct (get t5 n) as [e|] eqn:Q; [|discriminate]. unfold after_exec in D. destruct (cloexec e); [discriminate|]. injection D as <-.
  destruct G as [_ G]. destruct (G n e Q) as [X|[_ X]]; [right; split; auto; lia|]. left.
  unfold new_desc in X. repeat (destruct X as [->|X]; [cbn; tauto|]). subst e. cbn. tauto.
Qed.

(** C38, limit. If dup finds no free number the child never gets on: it retries
    for ever, and since the host waits in vfork, so does the host. *)
Theorem move_spins fuel limit x t : x < 8 -> (limit <= lowest t)%nat -> move_loop fuel limit x t = OutOfFuel.
Proof.
  revert x. induction fuel as [|fuel IH]; intros x X L; cbn [move_loop]; auto. unfold OtherLibraries.
  destruct (Z.ltb_spec x 8); [|lia]. unfold dup, open_file. destruct (get t x); cbn [option_map].
  - destruct (Nat.ltb_spec (lowest t) limit); [lia|]. apply IH; lia.
  - apply IH; lia.
Qed.
Theorem start_child_always_ends_refuted debug limit fuel pagemap lib reopen h t :
  0 <= h_shm h < 8 -> (limit <= lowest t)%nat -> start_child debug fuel limit pagemap lib reopen h t = OutOfFuel.
Proof.
  intros X L. unfold start_child, prepare, move_fd. destruct (Z.ltb_spec (h_shm h) 0); [lia|]. rewrite andb_false_r, move_spins by (auto; lia). auto.
Qed.

(** C39. With the standard descriptors open in the host and not themselves the
    pagemap, the sandbox's only way to the pagemap's file is descriptor 4, which
    is read-only when the re-open works. *)
Theorem pagemap_only_readonly debug limit fuel pagemap lib h t p t' h' n d :
  host_has t pagemap h p -> room limit t -> (10 < fuel)%nat ->
  (forall m, 0 <= m <= 2 -> exists e, get t m = Some e /\ file e <> file (p_pagemap p)) ->
  file (p_shm p) <> file (p_pagemap p) -> file (p_sock p) <> file (p_pagemap p) ->
  file (p_rpc p) <> file (p_pagemap p) -> file lib <> file (p_pagemap p) ->
  start_child debug fuel limit pagemap (Some lib) true h t = Ret (Started t' h') ->
  get t' n = Some d -> file d = file (p_pagemap p) -> n = 4 /\ writable d = false.
Proof.
  intros H R F S A1 A2 A3 A4 E D Q. destruct (start_ok debug limit fuel pagemap lib true h t p H R F) as (t5 & t2 & E2 & G & L & _).
  rewrite E2 in E. injection E as <- <-. pose proof (get_pos _ _ _ D) as P. rewrite L in D.
  destruct (Z.eqb_spec n 3); [injection D as <-; cbn in Q; congruence|].
  destruct (Z.eqb_spec n 4); [injection D as <-; cbn; auto|].
  destruct (Z.eqb_spec n 5); [injection D as <-; cbn in Q; congruence|].
  destruct (Z.eqb_spec n 6); [injection D as <-; cbn in Q; congruence|].
  destruct (Z.eqb_spec n 7); [injection D as <-; cbn in Q; congruence|].
  destruct (Z.ltb_spec n 8); [|discriminate]. destruct (S n ltac:(lia)) as (e & X & Y).
  rewrite (grows_get _ _ _ _ _ G X) in D. unfold after_exec in D. destruct (cloexec e); [discriminate|]. injection D as <-. congruence.
Qed.
(** C39, limit. If the re-open fails the sandbox runs with a pagemap descriptor
    as writable as the host's, and nobody notices. *)
Theorem pagemap_readonly_if_reopen_fails_refuted debug limit fuel pagemap lib h t p :
  host_has t pagemap h p -> room limit t -> (10 < fuel)%nat -> writable (p_pagemap p) = true ->
  exists t' h', start_child debug fuel limit pagemap (Some lib) false h t = Ret (Started t' h')
    /\ get t' 4 = Some (Desc (file (p_pagemap p)) true false).
Proof.
  intros H R F W. destruct (child_descriptor_layout debug limit fuel pagemap lib false h t p H R F) as (t' & h' & E & L).
  exists t', h'. split; auto. destruct L as (_ & L & _). rewrite L, W. auto.
Qed.
(** C39, limit. If the host runs without standard input and the pagemap
    descriptor is low but the shared memory's is not (a second sandbox), the
    sandbox starts with the pagemap, writable, as its descriptor 0. *)
Theorem closed_stdin_leaks_pagemap debug limit fuel pagemap lib reopen h t p :
  host_has t pagemap h p -> room limit t -> (10 < fuel)%nat ->
  get t 0 = None -> 8 <= h_shm h -> pagemap < 8 ->
  exists t' h', start_child debug fuel limit pagemap (Some lib) reopen h t = Ret (Started t' h')
    /\ get t' 0 = same_open (p_pagemap p).
Proof.
  intros H R F Z0 A B. destruct (start_ok debug limit fuel pagemap lib reopen h t p H R F) as (t5 & t' & E & G & L & K).
  exists t'. eexists. split; [exact E|]. rewrite L. cbn [Z.eqb Z.ltb Z.compare]. 
  assert (lowest t = 0%nat) as Q.
  { destruct (lowest t) eqn:W; auto. exfalso. apply (lowest_min t 0); [lia|]. rewrite <- get_nat. exact Z0. }
  specialize (K A B). rewrite Q in K. change (Z.of_nat 0) with 0 in K. rewrite K. reflexivity.
Qed.
(** C39, limit. Likewise if the pagemap itself is one of the host's descriptors
    0 to 2. *)
Theorem pagemap_as_stdio_leaks debug limit fuel pagemap lib reopen h t p :
  host_has t pagemap h p -> room limit t -> (10 < fuel)%nat -> 0 <= pagemap <= 2 -> cloexec (p_pagemap p) = false ->
  exists t' h', start_child debug fuel limit pagemap (Some lib) reopen h t = Ret (Started t' h')
    /\ get t' pagemap = same_open (p_pagemap p).
Proof.
  intros H R F B C. destruct (child_descriptor_layout debug limit fuel pagemap lib reopen h t p H R F) as (t' & h' & E & L).
  exists t', h'. split; auto. destruct L as (_ & _ & _ & _ & _ & _ & L). destruct H as (_ & H & _).
  rewrite (L _ _ B H). unfold after_exec, same_open. destruct (p_pagemap p); cbn in *; subst; auto.
Qed.

(** C51. Starting a sandbox empties the host's Handle objects for the shared
    memory and for the sandbox's ends of both sockets, while the host's table is
    untouched: the three descriptors stay open in the host with no owner. *)
Theorem start_leaks_host_descriptors debug limit fuel pagemap lib reopen h t p :
  host_has t pagemap h p -> room limit t -> (10 < fuel)%nat ->
  exists t' h', start_child debug fuel limit pagemap (Some lib) reopen h t = Ret (Started t' h')
    /\ h_shm h' = -1 /\ h_rpc h' = -1 /\ h_sock h' = -1
    /\ get (host_after h' t) (h_shm h) = Some (p_shm p)
    /\ get (host_after h' t) (h_rpc h) = Some (p_rpc p)
    /\ get (host_after h' t) (h_sock h) = Some (p_sock p).
Proof.
  intros H R F. destruct (start_ok debug limit fuel pagemap lib reopen h t p H R F) as (t5 & t' & E & _).
  exists t'. eexists. split; [exact E|]. destruct H as (? & ? & ? & ?). cbn. auto 10.
Qed.
(** C51. If the library file does not open, the host's socket Handles end up
    with the sandbox's numbers for them.  For a descriptor below 8 that number
    is not open in the host: the destructor closes nothing (or whatever another
    thread opened there meanwhile) and the original stays open. *)
Theorem missing_library_leaves_wrong_numbers debug limit fuel pagemap reopen h t p :
  host_has t pagemap h p -> room limit t -> (10 < fuel)%nat ->
  exists h', start_child debug fuel limit pagemap None reopen h t = Ret (LibraryMissing h')
    /\ (h_sock h < 8 -> 8 <= h_sock h' /\ get t (h_sock h') = None)
    /\ (h_rpc h < 8 -> 8 <= h_rpc h' /\ get t (h_rpc h') = None)
    /\ (h_sock h < 8 -> h_rpc h < 8 -> forall n, get (host_after h' t) n = get t n).
Proof.
  intros (Gs & Gp & Gr & Gk) R F0. unfold room in R. assert (F : (9 < fuel)%nat) by lia.
  assert (Wt : (weight t <= open_count t + 8)%nat) by (unfold weight; pose proof (holes_le t); lia).
  destruct (move_fd_ok debug limit fuel (h_shm h) t _ Gs F) as (t1 & y1 & E1 & Y1 & G1 & X1 & W1 & _); [lia|].
  pose proof (grows_get _ _ _ _ _ X1 Gp) as Gp1.
  destruct (move_fd_ok debug limit fuel pagemap t1 _ Gp1 F) as (t2 & y2 & E2 & Y2 & G2 & X2 & W2 & _); [lia|].
  pose proof (grows_get _ _ _ _ _ X2 (grows_get _ _ _ _ _ X1 Gk)) as Gk2.
  destruct (move_fd_ok debug limit fuel (h_sock h) t2 _ Gk2 F) as (t3 & y3 & E3 & Y3 & G3 & X3 & W3 & _ & N3 & _); [lia|].
  pose proof (grows_get _ _ _ _ _ X3 (grows_get _ _ _ _ _ X2 (grows_get _ _ _ _ _ X1 Gr))) as Gr3.
  destruct (move_fd_ok debug limit fuel (h_rpc h) t3 _ Gr3 F) as (t4 & y4 & E4 & Y4 & G4 & X4 & W4 & _ & N4 & _); [lia|].
  exists (Handles (-1) y4 y3). split; [|].
  { unfold start_child, prepare. rewrite E1. cbn [obind]. rewrite E2. cbn [obind]. rewrite E3. cbn [obind]. rewrite E4. cbn [obind]. reflexivity. }
  assert (None_back : forall P a b n, grows P a b -> get b n = None -> get a n = None).
  { intros P a b n [A _] Q. destruct (get a n) eqn:E; auto. apply A in E. congruence. }
  assert (Q3 : h_sock h < 8 -> get t y3 = None) by (intros X; specialize (N3 X); eauto).
  assert (Q4 : h_rpc h < 8 -> get t y4 = None) by (intros X; specialize (N4 X); eauto).
  cbn [h_sock h_rpc]. split; [auto|]. split; [auto|].
  intros S8 R8 n. unfold host_after. cbn [h_sock h_rpc]. destruct (Z.ltb_spec y3 0); [lia|]. destruct (Z.ltb_spec y4 0); [lia|].
  rewrite !get_close. destruct (Z.eqb_spec n y4) as [->|]; [rewrite Q4; auto|]. destruct (Z.eqb_spec n y3) as [->|]; [rewrite Q3; auto|]. auto.
Qed.

(** C51. And it closes whatever another thread of the host opened under such a
    number before the destructor runs: any descriptor at all, for any table the host
    may have by then. *)
Theorem missing_library_closes_anothers_descriptor debug limit fuel pagemap reopen h t p :
  host_has t pagemap h p -> room limit t -> (10 < fuel)%nat ->
  exists h', start_child debug fuel limit pagemap None reopen h t = Ret (LibraryMissing h') /\
    forall n, n = h_sock h' /\ h_sock h < 8 \/ n = h_rpc h' /\ h_rpc h < 8 ->
      get t n = None /\ forall later d, get later n = Some d -> get (host_after h' later) n = None.
Proof.
  intros H R F. destruct (missing_library_leaves_wrong_numbers debug limit fuel pagemap reopen h t p H R F) as (h' & E & S & P & _).
  exists h'. split; [exact E|]. intros n [[-> L]|[-> L]].
  - destruct (S L) as [N G]. split; [exact G|]. intros later d _. unfold host_after. destruct (Z.ltb_spec (h_sock h') 0); [lia|].
    destruct (Z.ltb_spec (h_rpc h') 0); rewrite !get_close, ?Z.eqb_refl; [reflexivity|]. destruct (_ =? _); reflexivity.
  - destruct (P L) as [N G]. split; [exact G|]. intros later d _. unfold host_after. destruct (Z.ltb_spec (h_rpc h') 0); [lia|].
    rewrite get_close, Z.eqb_refl. reflexivity.
Qed.

(** A concrete host: standard descriptors, pagemap at 3, shared memory at 6,
    sockets at 8 and 10, an unrelated file at 4. *)
Definition ex_host : table :=
  [Some (Desc 100 true false); Some (Desc 101 true false); Some (Desc 102 true false); Some (Desc 1 true false);
   Some (Desc 50 true false); None; Some (Desc 2 true false); None; Some (Desc 3 true false); Some (Desc 51 true true);
   Some (Desc 4 true false)].
Definition ex_handles := Handles 6 8 10.
Definition ex_passed := Passed (Desc 2 true false) (Desc 1 true false) (Desc 3 true false) (Desc 4 true false).
Example fd_ex_hyps : host_has ex_host 3 ex_handles ex_passed /\ room 64 ex_host
  /\ (forall m, 0 <= m <= 2 -> exists e, get ex_host m = Some e /\ file e <> file (p_pagemap ex_passed)).
Proof.
  repeat split; [unfold room; cbn; lia|]. intros m M. assert (m = 0 \/ m = 1 \/ m = 2) as X by lia.
  destruct X as [->|[->| ->]]; eexists; (split; [reflexivity|cbn; lia]).
Qed.
Example fd_ex : start_child true 11 64 3 (Some (Desc 9 false false)) true ex_handles ex_host =
  Ret (Started [Some (Desc 100 true false); Some (Desc 101 true false); Some (Desc 102 true false); Some (Desc 2 true false);
                Some (Desc 1 false false); Some (Desc 4 true false); Some (Desc 9 false false); Some (Desc 3 true false); None] 
        (Handles (-1) (-1) (-1))).
Proof. vm_compute. reflexivity. Qed.
(** A host without standard input, for the limits. *)
Definition ex_bad_host : table := [None; Some (Desc 101 true false); Some (Desc 102 true false); Some (Desc 1 true false);
   None; None; None; None; Some (Desc 2 true false); Some (Desc 3 true false); Some (Desc 4 true false)].
Example fd_ex_bad : host_has ex_bad_host 3 (Handles 8 9 10) ex_passed /\ room 64 ex_bad_host /\ get ex_bad_host 0 = None.
Proof. repeat split. unfold room. cbn. lia. Qed.
Example fd_ex_low : host_has (Some (Desc 1 true false) :: tl ex_host) 0 ex_handles ex_passed.
Proof. repeat split. Qed.
Example fd_ex_missing : host_has [None; None; None; Some (Desc 1 true false); Some (Desc 2 true false); Some (Desc 3 true false); Some (Desc 4 true false)]
    3 (Handles 4 5 6) ex_passed.
Proof. repeat split. Qed.
(** There, what the host opens as 10 or 11 meanwhile is closed. *)
Example fd_ex_missing_run :
  let t := [None; None; None; Some (Desc 1 true false); Some (Desc 2 true false); Some (Desc 3 true false); Some (Desc 4 true false)] in
  let later := t ++ [None; None; None; Some (Desc 70 true false); Some (Desc 71 true false)] in
  start_child true 11 64 3 None true (Handles 4 5 6) t = Ret (LibraryMissing (Handles (-1) 11 10)) /\ room 64 t /\
  get later 10 = Some (Desc 70 true false) /\ get (host_after (Handles (-1) 11 10) later) 10 = None.
Proof. cbv zeta. split; [vm_compute; reflexivity|]. split; [unfold room; cbn; lia|]. split; reflexivity. Qed.
Example fd_ex_full : (11 <= lowest (map (fun o => match o with None => Some (Desc 60 true false) | _ => o end) ex_host))%nat.
Proof. cbn. lia. Qed.

Print Assumptions child_descriptor_layout.
Print Assumptions child_gets_nothing_else.
Print Assumptions start_child_always_ends_refuted.
Print Assumptions pagemap_only_readonly.
Print Assumptions pagemap_readonly_if_reopen_fails_refuted.
Print Assumptions closed_stdin_leaks_pagemap.
Print Assumptions pagemap_as_stdio_leaks.
Print Assumptions start_leaks_host_descriptors.
Print Assumptions missing_library_leaves_wrong_numbers.
Print Assumptions missing_library_closes_anothers_descriptor.
