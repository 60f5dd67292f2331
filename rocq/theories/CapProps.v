(** Claimed theorems about descriptors and rights on FreeBSD (C60). *)
From Coq Require Import List ZArith Bool Lia Arith.
From Verif Require Import Base FdModel FdSpec FdProof FdProps CapModel CapSpec.
Import ListNotations.
Open Scope Z_scope.

Lemma prepare_low debug fuel limit pagemap lib h t t' :
  prepare debug fuel limit pagemap lib h t = Ret (Ready t') -> forall n, 8 <= n -> get t' n = None.
Proof.
  unfold prepare. intros E n N.
  destruct (move_fd debug fuel limit (h_shm h) t) as [[t1 y1]| | | |]; cbn [obind] in E; try discriminate.
  destruct (move_fd debug fuel limit pagemap t1) as [[t2 y2]| | | |]; cbn [obind] in E; try discriminate.
  destruct (move_fd debug fuel limit (h_sock h) t2) as [[t3 y3]| | | |]; cbn [obind] in E; try discriminate.
  destruct (move_fd debug fuel limit (h_rpc h) t3) as [[t4 y4]| | | |]; cbn [obind] in E; try discriminate.
  destruct (open_file limit lib t4) as [t5 y5]. destruct (y5 <? 0); [discriminate|].
  destruct (move_fd debug fuel limit y5 t5) as [[t6 y6]| | | |]; cbn [obind] in E; try discriminate.
  injection E as <-. unfold OtherLibraries. rewrite get_closefrom by lia. destruct (Z.ltb_spec n 8); [lia|auto].
Qed.

Lemma open_dirs_get limit : forall dirs libfd t r t' r', 0 <= libfd -> open_dirs limit libfd dirs t r = inl (t', r') ->
  (forall n, n < libfd \/ libfd + Z.of_nat (length dirs) <= n -> get t' n = get t n /\ r' n = r n) /\
  (forall i f, nth_error dirs i = Some (Some f) -> get t' (libfd + Z.of_nat i) = Some (Desc f false false)) /\
  (forall n, libfd <= n < libfd + Z.of_nat (length dirs) -> get t' n <> None /\ r' n = all_rights) /\
  (forall d, In d dirs -> d <> None).
Proof.
  induction dirs as [|d ds IH]; intros libfd t r t' r' P E; cbn [open_dirs] in E.
  - injection E as <- <-. split; [auto|]. split; [intros [|i]; discriminate|]. split; [cbn; lia|intros ? []].
  - unfold open_file in E. destruct d as [f|]; cbn [option_map] in E; [|destruct (Z.eqb_spec (-1) libfd); [lia|discriminate]].
    destruct (lowest t <? limit)%nat; [|destruct (Z.eqb_spec (-1) libfd); [lia|discriminate]].
    destruct (Z.eqb_spec (Z.of_nat (lowest t)) libfd) as [<-|]; [|discriminate].
    apply IH in E; [|lia]. destruct E as (A & B & C & D). cbn [length]. split; [|split; [|split]].
    + intros n N. destruct (A n) as [A1 A2]; [lia|]. rewrite A1, A2. unfold rset. rewrite get_set_nat.
      destruct (Z.eqb_spec n (Z.of_nat (lowest t))); [lia|auto].
    + intros [|i] g H; cbn in H.
      * injection H as ->. rewrite Z.add_0_r. destruct (A (Z.of_nat (lowest t))) as [A1 _]; [lia|]. rewrite A1, get_set_nat, Z.eqb_refl. auto.
      * replace (Z.of_nat (lowest t) + Z.of_nat (S i)) with (Z.of_nat (lowest t) + 1 + Z.of_nat i) by lia. auto.
    + intros n N. destruct (Z.eq_dec n (Z.of_nat (lowest t))) as [->|X]; [|apply C; lia].
      destruct (A (Z.of_nat (lowest t))) as [A1 A2]; [lia|]. rewrite A1, A2, get_set_nat. unfold rset. rewrite Z.eqb_refl. split; [discriminate|auto].
    + intros x [<-|X]; [discriminate|auto].
Qed.

(** The last limit set on each descriptor counts. *)
Lemma apply_limits_get t : forall ls r r', apply_limits t ls r = Some r' -> NoDup (map fst ls) ->
  (forall n l, In (n, l) ls -> r' n = only l /\ get t n <> None) /\ (forall n, ~ In n (map fst ls) -> r' n = r n).
Proof.
  induction ls as [|[m l] ls IH]; intros r r' E ND; cbn [apply_limits] in E.
  - injection E as <-. split; [intros ? ? []|auto].
  - unfold cap_rights_limit in E. destruct (get t m) as [d|] eqn:G; [|discriminate].
    destruct (forallb (r m) l); [|discriminate]. cbn [map fst] in ND. inversion ND as [|? ? NI ND']; subst.
    destruct (IH _ _ E ND') as [A B]. split.
    + intros n k [H|H]; [|auto]. injection H as -> ->. rewrite B by auto. unfold rset. rewrite Z.eqb_refl. split; [auto|congruence].
    + intros n N. cbn in N. rewrite B by tauto. unfold rset. destruct (Z.eqb_spec n m); [subst; tauto|auto].
Qed.
Lemma limits_3_nodup : NoDup (map fst (limits 3)).
Proof. repeat constructor; cbn; intuition discriminate. Qed.

Lemma cap_running debug fuel limit pagemap lib dirs trapctl ok old h t t' r :
  cap_start debug fuel limit pagemap lib dirs trapctl ok old h t = Ret (CapRunning t' r) ->
  exists t0 t1 r1, prepare debug fuel limit pagemap lib h t = Ret (Ready t0) /\
    open_dirs limit 8 [dirs 0; dirs 1; dirs 2] t0 old = inl (t1, r1) /\
    apply_limits t1 (limits 3) r1 = Some r /\ t' = exec t1.
Proof.
  unfold cap_start. intros E. destruct (prepare debug fuel limit pagemap lib h t) as [[t0|]| | | |] eqn:P; cbn [obind] in E; try discriminate.
  injection E as E. unfold cap_execve in E. change OtherLibraries with 8 in E.
  destruct (open_dirs limit 8 [dirs 0; dirs 1; dirs 2] t0 old) as [[t1 r1]|[t1 r1]] eqn:D; [|discriminate].
  destruct (apply_limits t1 (limits (length [dirs 0; dirs 1; dirs 2])) r1) as [r2|] eqn:L; [|discriminate].
  destruct trapctl; [|discriminate]. destruct ok; [|discriminate]. injection E as <- <-. exists t0, t1, r1. auto.
Qed.

Ltac pick_use X := repeat (destruct X as [<-|X];
  [first [exists UseRead; cbn; tauto|exists UseWrite; cbn; tauto|exists UseSeek; cbn; tauto|exists UseMapRead; cbn; tauto
         |exists UseMapExec; cbn; tauto|exists UseSync; cbn; tauto|exists UseStat; cbn; tauto|exists UseOpenBelow; cbn; tauto]|]); contradiction.

(** The running sandbox has no descriptor above 10; it can use each, number 5
    apart, in the documented ways and in no other way; all of 0 to 10 were
    limited, so no limiting failed silently.  This holds whatever the host's
    descriptors are and whatever rights they had. *)
Theorem cap_rights_exact : forall debug fuel limit pagemap lib dirs trapctl ok old h t t' r n d,
  cap_start debug fuel limit pagemap lib dirs trapctl ok old h t = Ret (CapRunning t' r) ->
  get t' n = Some d -> n <> 5 ->
  0 <= n <= 10 /\ (forall u, permits (r n) u <-> In u (documented n)) /\
  (forall x, r n x = true -> exists u, In u (documented n) /\ In x (needs u)).
Proof.
  intros debug fuel limit pagemap lib dirs trapctl ok old h t t' r n d E G N5.
  destruct (cap_running _ _ _ _ _ _ _ _ _ _ _ _ _ E) as (t0 & t1 & r1 & P & D & L & ->).
  assert (B : 0 <= n <= 10).
  { rewrite get_exec in G. destruct (get t1 n) as [e|] eqn:G1; [|discriminate]. pose proof (get_pos _ _ _ G1).
    destruct (Z.leb_spec n 10); [lia|]. destruct (open_dirs_get _ _ _ _ _ _ _ (ltac:(lia) : 0 <= 8) D) as (A & _).
    destruct (A n) as [A1 _]; [cbn; lia|]. rewrite (prepare_low _ _ _ _ _ _ _ _ P) in A1 by lia. congruence. }
  split; auto. destruct (apply_limits_get _ _ _ _ L limits_3_nodup) as [A _].
  assert (K : forall l m, n = m -> In (m, l) (limits 3) ->
    (forall u, (forall x, In x (needs u) -> only l x = true) <-> In u (documented m)) ->
    (forall x, only l x = true -> exists u, In u (documented m) /\ In x (needs u)) ->
    (forall u, permits (r n) u <-> In u (documented n)) /\ (forall x, r n x = true -> exists u, In u (documented n) /\ In x (needs u))).
  { intros l m -> I H1 H2. destruct (A _ _ I) as [Rn _]. rewrite Rn. auto. }
  assert (Q : n = 0 \/ n = 1 \/ n = 2 \/ n = 3 \/ n = 4 \/ n = 6 \/ n = 7 \/ n = 8 \/ n = 9 \/ n = 10) by lia.
  assert (DEC : forall l m, (forall u, forallb (only l) (needs u) = existsb (fun v => if (ltac:(decide equality) : {u = v} + {u <> v}) then true else false) (documented m)) ->
     forall u, (forall x, In x (needs u) -> only l x = true) <-> In u (documented m)).
  { intros l m H u. specialize (H u). rewrite <- forallb_forall, H. rewrite existsb_exists. split.
    - intros (v & V & W). destruct (_ : {u = v} + {u <> v}); [subst; auto|discriminate].
    - intros I. exists u. split; auto. destruct (_ : {u = u} + {u <> u}); congruence. }
  assert (INC : forall l m, (forall x, In x l -> exists u, In u (documented m) /\ In x (needs u)) ->
     forall x, only l x = true -> exists u, In u (documented m) /\ In x (needs u)).
  { intros l m H x X. unfold only in X. apply existsb_exists in X as (y & Y & Z). destruct (right_eq x y); [subst; auto|discriminate]. }
  destruct Q as [Q|[Q|[Q|[Q|[Q|[Q|[Q|[Q|[Q|Q]]]]]]]]]; (eapply K; [exact Q|cbn; tauto|apply DEC; intros []; reflexivity|apply INC; cbn; intros x X; pick_use X]).
Qed.
Print Assumptions cap_rights_exact.

Lemma open_dirs_ok limit : forall dirs t r, (lowest t + length dirs <= limit)%nat ->
  (forall d, In d dirs -> d <> None) -> (forall n, (lowest t <= n)%nat -> nth n t None = None) ->
  exists t' r', open_dirs limit (Z.of_nat (lowest t)) dirs t r = inl (t', r').
Proof.
  induction dirs as [|d ds IH]; intros t r L D F; cbn [open_dirs length] in *; [eauto|].
  destruct d as [f|]; [|exfalso; apply (D None); [left|]; reflexivity]. cbn [option_map open_file]. destruct (Nat.ltb_spec (lowest t) limit); [|lia].
  rewrite Z.eqb_refl.
  assert (LN : lowest (set_nat t (lowest t) (Some (Desc f false false))) = S (lowest t)).
  { set (t2 := set_nat t (lowest t) (Some (Desc f false false))).
    destruct (lt_eq_lt_dec (lowest t2) (S (lowest t))) as [[X|X]|X]; auto; exfalso.
    - pose proof (lowest_free t2) as Fr. unfold t2 at 2 in Fr. rewrite nth_set in Fr.
      destruct (Nat.eqb_spec (lowest t2) (lowest t)) as [Y|Y]; [discriminate|].
      apply (lowest_min t (lowest t2)); [lia|exact Fr].
    - apply (lowest_min t2 _ X). unfold t2. rewrite nth_set. destruct (Nat.eqb_spec (S (lowest t)) (lowest t)); [lia|]. apply F. lia. }
  replace (Z.of_nat (lowest t) + 1) with (Z.of_nat (lowest (set_nat t (lowest t) (Some (Desc f false false))))) by (rewrite LN; lia).
  apply IH; [rewrite LN; lia|intros x X; apply D; right; auto|].
  intros n N. rewrite LN in N. rewrite nth_set. destruct (Nat.eqb_spec n (lowest t)); [lia|]. apply F. lia.
Qed.

Lemma apply_limits_ok t : forall ls r, NoDup (map fst ls) -> (forall n l, In (n, l) ls -> get t n <> None /\ forall x, In x l -> r n x = true) ->
  exists r', apply_limits t ls r = Some r'.
Proof.
  induction ls as [|[m l] ls IH]; intros r ND H; cbn [apply_limits]; [eauto|]. cbn [map fst] in ND. inversion ND as [|? ? NI ND']; subst.
  destruct (H m l (or_introl eq_refl)) as [G X]. unfold cap_rights_limit. destruct (get t m); [|congruence].
  assert (F : forallb (r m) l = true) by (apply forallb_forall; auto). rewrite F.
  apply IH; auto. intros n k I. destruct (H n k (or_intror I)) as [A B]. split; auto. intros x I2. unfold rset.
  destruct (Z.eqb_spec n m) as [->|]; auto. destruct NI. apply in_map_iff. exists (m, k). auto.
Qed.

Lemma filled_lowest t : filled t -> (forall n, 8 <= n -> get t n = None) -> lowest t = 8%nat.
Proof.
  intros F N. pose proof (lowest_free t) as A.
  destruct (lt_eq_lt_dec (lowest t) 8) as [[X|X]|X]; auto; exfalso.
  - apply (F (Z.of_nat (lowest t))); [lia|]. rewrite get_nat. exact A.
  - apply (lowest_min t 8 X). rewrite <- get_nat. apply N. lia.
Qed.

(** The start succeeds for every host with the usual descriptors open, room for
    new ones, and no rights restricted, when the library and the three
    directories open; what the process then has. *)
Lemma cap_start_ok debug fuel limit pagemap lib dirs f0 f1 f2 old h t p :
  host_has t pagemap h p -> room limit t -> (10 < fuel)%nat ->
  dirs 0 = Some f0 -> dirs 1 = Some f1 -> dirs 2 = Some f2 -> (forall n, 0 <= n < 8 -> old n = all_rights) ->
  exists t5 t' r, cap_start debug fuel limit pagemap (Some lib) dirs true true old h t = Ret (CapRunning t' r)
    /\ grows (new_desc p lib) t t5 /\ filled t5
    /\ (forall n, get t' n =
          if n =? 3 then same_open (p_shm p)
          else if n =? 4 then same_open (p_pagemap p)
          else if n =? 5 then same_open (p_sock p)
          else if n =? 6 then same_open lib
          else if n =? 7 then same_open (p_rpc p)
          else if n =? 8 then Some (Desc f0 false false)
          else if n =? 9 then Some (Desc f1 false false)
          else if n =? 10 then Some (Desc f2 false false)
          else if n <? 8 then match get t5 n with Some d => after_exec d | None => None end
          else None)
    /\ (8 <= h_shm h -> pagemap < 8 -> get t5 (Z.of_nat (lowest t)) = Some (inherit (p_pagemap p))).
Proof.
  intros H R F D0 D1 D2 O. destruct (prepare_ok debug limit fuel pagemap lib h t p H R F) as (t5 & t' & E & G & OC & L & Fl & X).
  assert (N8 : forall n, 8 <= n -> get t' n = None) by (eapply prepare_low; eauto).
  assert (Ft : filled t').
  { intros n N. rewrite L. destruct (n =? 3); [discriminate|]. destruct (n =? 4); [discriminate|]. destruct (n =? 5); [discriminate|].
    destruct (n =? 6); [discriminate|]. destruct (n =? 7); [discriminate|]. destruct (Z.ltb_spec n 8); [auto|lia]. }
  pose proof (filled_lowest t' Ft N8) as Lw.
  assert (NN : forall n, (lowest t' <= n)%nat -> nth n t' None = None) by (intros n N; rewrite <- get_nat; apply N8; lia).
  destruct (open_dirs_ok limit [dirs 0; dirs 1; dirs 2] t' old) as (t1 & r1 & OD); auto.
  { rewrite Lw. unfold room in R. cbn. lia. }
  { intros d [<-|[<-|[<-|[]]]]; congruence. }
  rewrite Lw in OD. change (Z.of_nat 8) with 8 in OD.
  destruct (open_dirs_get _ _ _ _ _ _ _ (ltac:(lia) : 0 <= 8) OD) as (A & B & C & _). cbn [length] in A, B, C.
  destruct (apply_limits_ok t1 (limits 3) r1 limits_3_nodup) as (r & AL).
  { assert (LO : forall n, 0 <= n < 8 -> get t1 n <> None /\ forall x, r1 n x = true).
    { intros n N. destruct (A n) as [A1 A2]; [lia|]. rewrite A1, A2, (O n N). split; [apply Ft; auto|reflexivity]. }
    assert (HI : forall n, 8 <= n < 11 -> get t1 n <> None /\ forall x, r1 n x = true).
    { intros n N. destruct (C n) as [C1 C2]; [lia|]. rewrite C2. split; [auto|reflexivity]. }
    intros n l I.
    assert (Q : 0 <= n < 11) by (cbn in I; unfold PageMapUpdates, SharedMemRegion, PageMapPage, MainLibrary, OtherLibraries in I; intuition (match goal with [K : (_, _) = (_, _) |- _] => injection K as <- _ end); lia).
    destruct (Z.ltb_spec n 8); [destruct (LO n) as [Q1 Q2]|destruct (HI n) as [Q1 Q2]]; try lia; auto. }
  exists t5, (exec t1), r. split; [|split; [exact G|split; [exact Fl|split; [|exact X]]]].
  - unfold cap_start. rewrite E. cbn [obind]. unfold cap_execve. change OtherLibraries with 8. rewrite OD.
    change (length [dirs 0; dirs 1; dirs 2]) with 3%nat. rewrite AL. reflexivity.
  - intros n. rewrite get_exec.
    assert (T1 : get t1 n = if n =? 8 then Some (Desc f0 false false) else if n =? 9 then Some (Desc f1 false false)
                   else if n =? 10 then Some (Desc f2 false false) else get t' n).
    { destruct (Z.eqb_spec n 8) as [->|K8]; [apply (B 0%nat f0); cbn; congruence|].
      destruct (Z.eqb_spec n 9) as [->|K9]; [apply (B 1%nat f1); cbn; congruence|].
      destruct (Z.eqb_spec n 10) as [->|K10]; [apply (B 2%nat f2); cbn; congruence|]. apply A. lia. }
    rewrite T1, L.
    destruct (Z.eqb_spec n 3), (Z.eqb_spec n 4), (Z.eqb_spec n 5), (Z.eqb_spec n 6), (Z.eqb_spec n 7), (Z.eqb_spec n 8), (Z.eqb_spec n 9), (Z.eqb_spec n 10);
      try lia; try reflexivity. destruct (n <? 8); reflexivity.
Qed.

(** The process starts, with the documented layout. *)
Theorem cap_layout : forall debug fuel limit pagemap lib dirs f0 f1 f2 old h t p,
  host_has t pagemap h p -> room limit t -> (10 < fuel)%nat ->
  dirs 0 = Some f0 -> dirs 1 = Some f1 -> dirs 2 = Some f2 -> (forall n, 0 <= n < 8 -> old n = all_rights) ->
  exists t' r, cap_start debug fuel limit pagemap (Some lib) dirs true true old h t = Ret (CapRunning t' r)
    /\ get t' 3 = same_open (p_shm p) /\ get t' 4 = same_open (p_pagemap p) /\ get t' 5 = same_open (p_sock p)
    /\ get t' 6 = same_open lib /\ get t' 7 = same_open (p_rpc p)
    /\ get t' 8 = Some (Desc f0 false false) /\ get t' 9 = Some (Desc f1 false false) /\ get t' 10 = Some (Desc f2 false false)
    /\ (forall n, 11 <= n -> get t' n = None)
    /\ (forall n d, 0 <= n <= 2 -> get t n = Some d -> get t' n = after_exec d).
Proof.
  intros debug fuel limit pagemap lib dirs f0 f1 f2 old h t p H R F D0 D1 D2 O.
  destruct (cap_start_ok debug fuel limit pagemap lib dirs f0 f1 f2 old h t p H R F D0 D1 D2 O) as (t5 & t' & r & E & G & _ & L & _).
  exists t', r. split; [exact E|]. rewrite !L. cbn [Z.eqb Pos.eqb]. do 8 (split; [reflexivity|]). split.
  - intros n N. rewrite L. destruct (Z.eqb_spec n 3), (Z.eqb_spec n 4), (Z.eqb_spec n 5), (Z.eqb_spec n 6), (Z.eqb_spec n 7), (Z.eqb_spec n 8), (Z.eqb_spec n 9), (Z.eqb_spec n 10), (Z.ltb_spec n 8); try lia. auto.
  - intros n d N D. rewrite L, (grows_get _ _ _ _ _ G D).
    destruct (Z.eqb_spec n 3), (Z.eqb_spec n 4), (Z.eqb_spec n 5), (Z.eqb_spec n 6), (Z.eqb_spec n 7), (Z.eqb_spec n 8), (Z.eqb_spec n 9), (Z.eqb_spec n 10), (Z.ltb_spec n 8); try lia. auto.
Qed.
Print Assumptions cap_layout.

(** With its standard descriptors open in the host and not themselves the
    pagemap, the sandbox's only descriptor of the pagemap is number 4, and no use
    the kernel permits of it changes the pagemap. *)
Theorem cap_pagemap_readonly : forall debug fuel limit pagemap lib dirs f0 f1 f2 old h t p t' r n d,
  host_has t pagemap h p -> room limit t -> (10 < fuel)%nat ->
  dirs 0 = Some f0 -> dirs 1 = Some f1 -> dirs 2 = Some f2 -> (forall n, 0 <= n < 8 -> old n = all_rights) ->
  (forall m, 0 <= m <= 2 -> exists e, get t m = Some e /\ file e <> file (p_pagemap p)) ->
  (forall f, In f [file (p_shm p); file (p_sock p); file (p_rpc p); file lib; f0; f1; f2] -> f <> file (p_pagemap p)) ->
  cap_start debug fuel limit pagemap (Some lib) dirs true true old h t = Ret (CapRunning t' r) ->
  get t' n = Some d -> file d = file (p_pagemap p) ->
  n = 4 /\ forall u, permits (r n) u -> changes u = false.
Proof.
  intros debug fuel limit pagemap lib dirs f0 f1 f2 old h t p t' r n d H R F D0 D1 D2 O S A E D Q.
  destruct (cap_start_ok debug fuel limit pagemap lib dirs f0 f1 f2 old h t p H R F D0 D1 D2 O) as (t5 & t2 & r2 & E2 & G & _ & L & _).
  pose proof E as E'. rewrite E2 in E'. injection E' as <- <-. cbn [In] in A.
  assert (N4 : n = 4).
  { pose proof (get_pos _ _ _ D) as P. pose proof D as D'. rewrite L in D'.
    destruct (Z.eqb_spec n 3); [injection D' as <-; cbn in Q; destruct (A (file (p_shm p))); auto|].
    destruct (Z.eqb_spec n 4); [auto|].
    destruct (Z.eqb_spec n 5); [injection D' as <-; cbn in Q; destruct (A (file (p_sock p))); auto|].
    destruct (Z.eqb_spec n 6); [injection D' as <-; cbn in Q; destruct (A (file lib)); auto|].
    destruct (Z.eqb_spec n 7); [injection D' as <-; cbn in Q; destruct (A (file (p_rpc p))); auto|].
    destruct (Z.eqb_spec n 8); [injection D' as <-; cbn in Q; destruct (A f0); auto 10|].
    destruct (Z.eqb_spec n 9); [injection D' as <-; cbn in Q; destruct (A f1); auto 10|].
    destruct (Z.eqb_spec n 10); [injection D' as <-; cbn in Q; destruct (A f2); auto 10|].
    destruct (Z.ltb_spec n 8); [|discriminate]. destruct (S n) as (e & Se & Ne); [lia|].
    rewrite (grows_get _ _ _ _ _ G Se) in D'. unfold after_exec in D'. destruct (cloexec e); [discriminate|]. injection D' as <-. contradiction. }
  split; auto. subst n. destruct (cap_rights_exact _ _ _ _ _ _ _ _ _ _ _ _ _ _ _ E D) as (_ & X & _); [lia|].
  intros u U. apply X in U. cbn in U. intuition (subst; reflexivity).
Qed.
Print Assumptions cap_pagemap_readonly.

(** Starting a sandbox leaves the host owning exactly what it should: the
    sandbox's ends of the sockets are closed and everything else, the shared
    memory included, is as before. *)
Theorem cap_host_keeps : forall h t n, 0 <= h_sock h -> 0 <= h_rpc h ->
  get (host_after h t) n = if (n =? h_sock h) || (n =? h_rpc h) then None else get t n.
Proof.
  intros h t n A B. unfold host_after. destruct (Z.ltb_spec (h_sock h) 0); [lia|]. destruct (Z.ltb_spec (h_rpc h) 0); [lia|].
  rewrite !get_close. destruct (n =? h_sock h), (n =? h_rpc h); auto.
Qed.
Print Assumptions cap_host_keeps.

(** Limit.  The descriptor-passing socket keeps every right the host's had. *)
Theorem cap_socket_unrestricted : forall debug fuel limit pagemap lib dirs trapctl ok old h t t' r,
  cap_start debug fuel limit pagemap lib dirs trapctl ok old h t = Ret (CapRunning t' r) -> r 5 = old 5.
Proof.
  intros debug fuel limit pagemap lib dirs trapctl ok old h t t' r E.
  destruct (cap_running _ _ _ _ _ _ _ _ _ _ _ _ _ E) as (t0 & t1 & r1 & P & D & L & ->).
  destruct (apply_limits_get _ _ _ _ L limits_3_nodup) as [_ B]. rewrite B by (cbn; intuition discriminate).
  destruct (open_dirs_get _ _ _ _ _ _ _ (ltac:(lia) : 0 <= 8) D) as (A & _). apply A. lia.
Qed.
Print Assumptions cap_socket_unrestricted.

(** Limit.  If the host runs with standard output closed and the pagemap's
    descriptor is low but the shared memory's is not (a second sandbox), the
    sandbox can write to the pagemap through its descriptor 1. *)
Theorem cap_closed_stdout_leaks_pagemap : forall debug fuel limit pagemap lib dirs f0 f1 f2 old h t p,
  host_has t pagemap h p -> room limit t -> (10 < fuel)%nat ->
  dirs 0 = Some f0 -> dirs 1 = Some f1 -> dirs 2 = Some f2 -> (forall n, 0 <= n < 8 -> old n = all_rights) ->
  get t 0 <> None -> get t 1 = None -> 8 <= h_shm h -> pagemap < 8 ->
  exists t' r, cap_start debug fuel limit pagemap (Some lib) dirs true true old h t = Ret (CapRunning t' r)
    /\ get t' 1 = same_open (p_pagemap p) /\ permits (r 1) UseWrite.
Proof.
  intros debug fuel limit pagemap lib dirs f0 f1 f2 old h t p H R F D0 D1 D2 O Z0 Z1 A B.
  destruct (cap_start_ok debug fuel limit pagemap lib dirs f0 f1 f2 old h t p H R F D0 D1 D2 O) as (t5 & t' & r & E & G & _ & L & K).
  exists t', r. split; [exact E|].
  assert (Q : lowest t = 1%nat).
  { pose proof (lowest_free t) as Fr. destruct (lowest t) as [|[|k]] eqn:W; auto; exfalso.
    - apply Z0. change 0 with (Z.of_nat 0). rewrite get_nat. exact Fr.
    - apply (lowest_min t 1); [lia|]. rewrite <- get_nat. exact Z1. }
  specialize (K A B). rewrite Q in K. change (Z.of_nat 1) with 1 in K.
  assert (G1 : get t' 1 = same_open (p_pagemap p)) by (rewrite L; cbn [Z.eqb Pos.eqb Z.ltb Z.compare Pos.compare Pos.compare_cont]; rewrite K; reflexivity).
  split; [exact G1|]. unfold same_open in G1. destruct (cap_rights_exact _ _ _ _ _ _ _ _ _ _ _ _ _ _ _ E G1) as (_ & X & _); [lia|].
  apply X. cbn. auto.
Qed.
Print Assumptions cap_closed_stdout_leaks_pagemap.

(** A directory that does not open keeps the runner from starting: the sandbox
    never runs with fewer limits. *)
Theorem cap_missing_directory_not_run : forall debug fuel limit pagemap lib dirs trapctl ok old h t i,
  0 <= i <= 2 -> dirs i = None ->
  forall handler t' r, pdfork_child handler (cap_start debug fuel limit pagemap lib dirs trapctl ok old h t) <> Ret (RunsRunner t' r).
Proof.
  intros debug fuel limit pagemap lib dirs trapctl ok old h t i I N handler t' r E'.
  assert (E : cap_start debug fuel limit pagemap lib dirs trapctl ok old h t = Ret (CapRunning t' r)).
  { destruct (cap_start debug fuel limit pagemap lib dirs trapctl ok old h t) as [[]| | | |]; cbn in E'; try discriminate;
      [injection E' as <- <-; reflexivity|destruct handler; discriminate]. }
  destruct (cap_running _ _ _ _ _ _ _ _ _ _ _ _ _ E) as (t0 & t1 & r1 & P & D & L & _).
  destruct (open_dirs_get _ _ _ _ _ _ _ (ltac:(lia) : 0 <= 8) D) as (_ & _ & _ & X).
  apply (X (dirs i)); auto. assert (Q : i = 0 \/ i = 1 \/ i = 2) by lia. cbn. destruct Q as [->|[->| ->]]; auto.
Qed.
Print Assumptions cap_missing_directory_not_run.

Lemma open_dirs_unexpected limit : forall dirs libfd t r t' r', 0 <= libfd -> open_dirs limit libfd dirs t r = inr (t', r') ->
  forall n d, get t n = Some d -> get t' n = Some d.
Proof.
  induction dirs as [|x ds IH]; intros libfd t r t' r' P E n d G; cbn [open_dirs] in E; [discriminate|].
  assert (K : get (fst (open_file limit (option_map (fun f => Desc f false false) x) t)) n = Some d).
  { unfold open_file. destruct x as [f|]; cbn [option_map fst]; [|auto].
    destruct (lowest t <? limit)%nat; cbn [fst]; auto. rewrite get_set_nat.
    destruct (Z.eqb_spec n (Z.of_nat (lowest t))) as [->|]; auto. rewrite get_nat, lowest_free in G. discriminate. }
  destruct (open_file limit _ t) as [t2 fd]. cbn [fst] in K. destruct (fd =? libfd).
  - eapply IH in E; eauto. lia.
  - injection E as <- _. exact K.
Qed.
Lemma open_dirs_missing limit : forall dirs libfd t r, 0 <= libfd -> In None dirs ->
  exists t' r', open_dirs limit libfd dirs t r = inr (t', r').
Proof.
  intros dirs libfd t r P I. destruct (open_dirs limit libfd dirs t r) as [[t' r']|[t' r']] eqn:E; [|eauto].
  destruct (open_dirs_get _ _ _ _ _ _ _ P E) as (_ & _ & _ & X). destruct (X None I). reflexivity.
Qed.
Lemma open_dirs_rights limit : forall dirs libfd t r t' r', 0 <= libfd -> (forall n, 0 <= n < libfd -> get t n <> None) ->
  open_dirs limit libfd dirs t r = inr (t', r') -> forall n, 0 <= n < libfd -> r' n = r n.
Proof.
  induction dirs as [|x ds IH]; intros libfd t r t' r' P F E n N; cbn [open_dirs] in E; [discriminate|].
  unfold open_file in E. destruct x as [f|]; cbn [option_map] in E.
  - destruct (lowest t <? limit)%nat.
    + assert (L : libfd <= Z.of_nat (lowest t)).
      { destruct (Z.leb_spec libfd (Z.of_nat (lowest t))); auto. exfalso. apply (F (Z.of_nat (lowest t))); [lia|].
        rewrite get_nat. apply lowest_free. }
      destruct (Z.eqb_spec (Z.of_nat (lowest t)) libfd) as [Q|Q].
      * apply IH with (n := n) in E; [|lia| |lia].
        -- rewrite E. unfold rset. destruct (Z.eqb_spec n (Z.of_nat (lowest t))); [lia|auto].
        -- intros m M. rewrite get_set_nat. destruct (Z.eqb_spec m (Z.of_nat (lowest t))); [discriminate|]. apply F. lia.
      * injection E as _ <-. unfold rset. destruct (Z.eqb_spec n (Z.of_nat (lowest t))); [lia|auto].
    + destruct (Z.eqb_spec (-1) libfd); [lia|]. injection E as _ <-. unfold rset. destruct (Z.eqb_spec n (-1)); [lia|auto].
  - destruct (Z.eqb_spec (-1) libfd); [lia|]. injection E as _ <-. unfold rset. destruct (Z.eqb_spec n (-1)); [lia|auto].
Qed.

(** Limit.  It does not end the child either: when the host's program handles
    exceptions, the child goes on with a copy of that program, outside any
    sandbox, with the descriptors made for the sandbox and every right the host
    had on them. *)
Theorem cap_missing_directory_runs_host_program : forall debug fuel limit pagemap lib dirs trapctl ok old h t p i,
  host_has t pagemap h p -> room limit t -> (10 < fuel)%nat -> 0 <= i <= 2 -> dirs i = None ->
  exists t' r, pdfork_child true (cap_start debug fuel limit pagemap (Some lib) dirs trapctl ok old h t) = Ret (RunsHostProgram t' r)
    /\ get t' 3 = same_open (p_shm p) /\ get t' 4 = same_open (p_pagemap p) /\ get t' 5 = same_open (p_sock p)
    /\ get t' 6 = same_open lib /\ get t' 7 = same_open (p_rpc p)
    /\ (forall n, 0 <= n < 8 -> r n = old n).
Proof.
  intros debug fuel limit pagemap lib dirs trapctl ok old h t p i H R F I N.
  destruct (prepare_ok debug limit fuel pagemap lib h t p H R F) as (t5 & t' & E & G & OC & L & Fl & X).
  assert (Ft : filled t').
  { intros n K. rewrite L. destruct (n =? 3); [discriminate|]. destruct (n =? 4); [discriminate|]. destruct (n =? 5); [discriminate|].
    destruct (n =? 6); [discriminate|]. destruct (n =? 7); [discriminate|]. destruct (Z.ltb_spec n 8); [auto|lia]. }
  assert (Q : In None [dirs 0; dirs 1; dirs 2]).
  { assert (Q : i = 0 \/ i = 1 \/ i = 2) by lia. cbn. destruct Q as [->|[->| ->]]; rewrite N; auto. }
  destruct (open_dirs_missing limit _ 8 t' old (ltac:(lia)) Q) as (t2 & r2 & OD).
  exists t2, r2. split.
  - unfold cap_start. rewrite E. cbn [obind]. unfold cap_execve. change OtherLibraries with 8. rewrite OD. reflexivity.
  - assert (K : forall n d, get t' n = Some d -> get t2 n = Some d) by (eapply open_dirs_unexpected; [|exact OD]; lia).
    unfold same_open in *.
    split; [apply K; rewrite L; reflexivity|]. split; [apply K; rewrite L; reflexivity|]. split; [apply K; rewrite L; reflexivity|].
    split; [apply K; rewrite L; reflexivity|]. split; [apply K; rewrite L; reflexivity|].
    eapply open_dirs_rights; [| |exact OD]; [lia|]. intros n K8. apply Ft. lia.
Qed.
Print Assumptions cap_missing_directory_runs_host_program.

(** Every other failure ends the child. *)
Theorem cap_other_failures_end : forall debug fuel limit pagemap lib dirs f0 f1 f2 trapctl ok old h t p,
  host_has t pagemap h p -> room limit t -> (10 < fuel)%nat ->
  dirs 0 = Some f0 -> dirs 1 = Some f1 -> dirs 2 = Some f2 ->
  (lib = None \/ trapctl = false \/ ok = false) ->
  forall handler, pdfork_child handler (cap_start debug fuel limit pagemap lib dirs trapctl ok old h t) = Ret HasEnded.
Proof.
  intros debug fuel limit pagemap lib dirs f0 f1 f2 trapctl ok old h t p H R F D0 D1 D2 B handler.
  assert (OK : forall l, lib = Some l -> (trapctl && ok = false) ->
    pdfork_child handler (cap_start debug fuel limit pagemap lib dirs trapctl ok old h t) = Ret HasEnded).
  { intros l -> TO. destruct (prepare_ok debug limit fuel pagemap l h t p H R F) as (t5 & t' & E & G & OC & L & Fl & X).
    assert (N8 : forall n, 8 <= n -> get t' n = None) by (eapply prepare_low; eauto).
    assert (Ft : filled t').
    { intros n N. rewrite L. destruct (n =? 3); [discriminate|]. destruct (n =? 4); [discriminate|]. destruct (n =? 5); [discriminate|].
      destruct (n =? 6); [discriminate|]. destruct (n =? 7); [discriminate|]. destruct (Z.ltb_spec n 8); [auto|lia]. }
    pose proof (filled_lowest t' Ft N8) as Lw.
    assert (NN : forall n, (lowest t' <= n)%nat -> nth n t' None = None) by (intros n N; rewrite <- get_nat; apply N8; lia).
    destruct (open_dirs_ok limit [dirs 0; dirs 1; dirs 2] t' old) as (t1 & r1 & OD); auto.
    { rewrite Lw. unfold room in R. cbn. lia. }
    { intros d [<-|[<-|[<-|[]]]]; congruence. }
    rewrite Lw in OD. change (Z.of_nat 8) with 8 in OD.
    unfold cap_start. rewrite E. cbn [obind]. unfold cap_execve. change OtherLibraries with 8. rewrite OD.
    destruct (apply_limits _ _ _); [|reflexivity].
    destruct trapctl; [|reflexivity]. destruct ok; [discriminate|reflexivity]. }
  destruct lib as [l|].
  - apply (OK l eq_refl). destruct B as [B|[-> | ->]]; [discriminate|reflexivity|apply andb_false_r].
  - destruct (missing_library_leaves_wrong_numbers debug limit fuel pagemap true h t p H R F) as (h' & E & _).
    unfold start_child in E. unfold cap_start.
    destruct (prepare debug fuel limit pagemap None h t) as [[t0|]| | | |]; cbn [obind] in *; try discriminate E. reflexivity.
Qed.
Print Assumptions cap_other_failures_end.

(** A host meeting the hypotheses: standard streams on a terminal, pagemap 3,
    shared memory 5, sockets 7 and 9. *)
Definition cap_t : table :=
  [Some (Desc 1 true false); Some (Desc 1 true false); Some (Desc 1 true false); Some (Desc 2 true true); None;
   Some (Desc 3 true true); Some (Desc 90 true true); Some (Desc 4 true true); Some (Desc 91 true false); Some (Desc 5 true true)].
Definition cap_h := Handles 5 7 9.
Definition cap_p := Passed (Desc 3 true true) (Desc 2 true true) (Desc 4 true true) (Desc 5 true true).
Definition cap_dirs (i : Z) : option Z := Some (100 + i).
Example cap_ex : host_has cap_t 3 cap_h cap_p /\ room 1024 cap_t /\
  (forall m, 0 <= m <= 2 -> exists e, get cap_t m = Some e /\ file e <> file (p_pagemap cap_p)) /\
  exists t' r, cap_start true 20 1024 3 (Some (Desc 6 false false)) cap_dirs true true (fun _ => all_rights) cap_h cap_t = Ret (CapRunning t' r)
    /\ map (option_map file) t' = [Some 1; Some 1; Some 1; Some 3; Some 2; Some 5; Some 6; Some 4; Some 100; Some 101; Some 102]
    /\ r 4 RWrite = false /\ r 4 RRead = true /\ r 5 RWrite = true.
Proof.
  split; [repeat split|]. split; [vm_compute; lia|]. split.
  - intros m M. assert (Q : m = 0 \/ m = 1 \/ m = 2) by lia. destruct Q as [->|[->| ->]]; eexists; split; try reflexivity; cbn; discriminate.
  - do 2 eexists. split; [reflexivity|]. repeat split; reflexivity.
Qed.
Definition cap_t2 : table := [Some (Desc 1 true false); None; Some (Desc 1 true false); Some (Desc 2 true true); Some (Desc 80 true true);
   Some (Desc 90 true true); Some (Desc 90 true true); Some (Desc 4 true true); Some (Desc 3 true true); Some (Desc 5 true true)].
Example cap_ex_closed : host_has cap_t2 3 (Handles 8 7 9) cap_p /\ room 1024 cap_t2 /\ get cap_t2 0 <> None /\ get cap_t2 1 = None.
Proof. split; [repeat split|]. split; [vm_compute; lia|]. split; [discriminate|reflexivity]. Qed.
Example cap_ex_missing : host_has cap_t 3 cap_h cap_p /\ room 1024 cap_t /\
  exists t' r, pdfork_child true (cap_start true 20 1024 3 (Some (Desc 6 false false)) (fun i => if i =? 2 then None else cap_dirs i)
      true true (fun _ => all_rights) cap_h cap_t) = Ret (RunsHostProgram t' r)
    /\ map (option_map file) t' = [Some 1; Some 1; Some 1; Some 3; Some 2; Some 5; Some 6; Some 4; Some 100; Some 101] /\ r 4 RWrite = true.
Proof. split; [repeat split|]. split; [vm_compute; lia|]. do 2 eexists. split; [reflexivity|]. split; reflexivity. Qed.
