From Coq Require Import String Ascii List ZArith Bool Lia Arith.
From Verif Require Import Base PathModel PathSpec PathProof FileTreeModel FileTreeSpec.
Import ListNotations.
Local Open Scope Z_scope.

(** ** Maps *)
Lemma dfind_dset d n e m :
  dfind (dset d n e) m = if text_eq_dec n m then Some e else dfind d m.
Proof.
  induction d as [|[k e0] d IH]; cbn.
  - destruct (text_eq_dec n m); reflexivity.
  - destruct (text_eq_dec k n) as [->|Hk]; cbn.
    + destruct (text_eq_dec n m); reflexivity.
    + rewrite IH. destruct (text_eq_dec k m) as [->|]; auto.
      destruct (text_eq_dec n m); congruence.
Qed.

Lemma dset_same d n e : dfind d n = Some e -> dset d n e = d.
Proof.
  induction d as [|[k e0] d IH]; cbn; [discriminate|].
  destruct (text_eq_dec k n); intros H; [congruence|]. now rewrite IH.
Qed.

(** ** String searching *)
Lemma wrap_small z : 0 <= z < W -> wrap z = z.
Proof. apply Z.mod_small. Qed.

Lemma zlen_cons c l : zlen (c :: l) = zlen l + 1.
Proof. unfold zlen. cbn [length]. lia. Qed.
Lemma zlen_app a b : zlen (a ++ b) = zlen a + zlen b.
Proof. unfold zlen. rewrite app_length. lia. Qed.
Lemma zlen_nonneg a : 0 <= zlen a.
Proof. unfold zlen. lia. Qed.

Lemma find_slash_from_none l i : no_slash l -> find_slash_from l i = npos.
Proof.
  revert i. induction l as [|c l IH]; intros i H; cbn; auto.
  destruct (ascii_dec c slash) as [->|].
  - exfalso. apply H. left. reflexivity.
  - apply IH. intros Hin. apply H. right. auto.
Qed.

Lemma find_slash_from_some a b i :
  no_slash a -> find_slash_from (a ++ slash :: b) i = i + zlen a.
Proof.
  revert i. induction a as [|c a IH]; intros i H; cbn [app find_slash_from].
  - destruct (ascii_dec slash slash); [|congruence]. unfold zlen. cbn. lia.
  - destruct (ascii_dec c slash) as [->|].
    + exfalso. apply H. left. reflexivity.
    + rewrite IH, zlen_cons; [lia|]. intros Hin. apply H. right. auto.
Qed.

Lemma find_last_from_none l i acc : no_slash l -> find_last_from l i acc = acc.
Proof.
  revert i acc. induction l as [|c l IH]; intros i acc H; cbn; auto.
  destruct (ascii_dec c slash) as [->|].
  - exfalso. apply H. left. reflexivity.
  - apply IH. intros Hin. apply H. right. auto.
Qed.

Lemma find_last_from_app a b i acc :
  find_last_from (a ++ b) i acc = find_last_from b (i + zlen a) (find_last_from a i acc).
Proof.
  revert i acc. induction a as [|c a IH]; intros i acc; cbn [app find_last_from].
  - unfold zlen. cbn. now rewrite Z.add_0_r.
  - rewrite IH, zlen_cons. f_equal. lia.
Qed.

(** [find_last_from] does not depend on the accumulator when there is a slash. *)
Lemma find_last_from_in l i acc acc' :
  In slash l -> find_last_from l i acc = find_last_from l i acc'.
Proof.
  revert i acc acc'. induction l as [|c l IH]; intros i acc acc' H; cbn; [destruct H|].
  destruct (ascii_dec c slash) as [->|Hc].
  - reflexivity.
  - apply IH. destruct H; [congruence|auto].
Qed.

Lemma find_last_from_lower l i acc :
  In slash l -> i <= find_last_from l i acc < i + zlen l.
Proof.
  revert i acc. induction l as [|c l IH]; intros i acc H; [destruct H|].
  cbn [find_last_from]. rewrite zlen_cons.
  destruct (in_dec ascii_dec slash l) as [Hin|Hin].
  - specialize (IH (i + 1) (if ascii_dec c slash then i else acc) Hin). lia.
  - rewrite find_last_from_none by exact Hin.
    destruct H as [->|H]; [|contradiction].
    destruct (ascii_dec slash slash); [|congruence].
    pose proof (zlen_nonneg l). lia.
Qed.

Lemma skipn_zlen_app a b : skipn (Z.to_nat (zlen a)) (a ++ b) = b.
Proof.
  unfold zlen. rewrite Nat2Z.id. rewrite skipn_app, skipn_all, Nat.sub_diag. reflexivity.
Qed.

Lemma substr_app a b c :
  substr (a ++ b ++ c) (zlen a) (zlen b) = Ret b.
Proof.
  unfold substr. rewrite !zlen_app. 
  pose proof (zlen_nonneg a); pose proof (zlen_nonneg b); pose proof (zlen_nonneg c).
  destruct (Z.ltb_spec (zlen a + (zlen b + zlen c)) (zlen a)); [lia|].
  rewrite skipn_zlen_app. f_equal.
  rewrite Z.min_l by lia. unfold zlen. rewrite Nat2Z.id.
  rewrite firstn_app, firstn_all, Nat.sub_diag. cbn. apply app_nil_r.
Qed.

Lemma substr_rest a b : zlen (a ++ b) < npos -> substr (a ++ b) (zlen a) npos = Ret b.
Proof.
  intros H. unfold substr. rewrite zlen_app in *.
  pose proof (zlen_nonneg a); pose proof (zlen_nonneg b).
  destruct (Z.ltb_spec (zlen a + zlen b) (zlen a)); [lia|].
  rewrite skipn_zlen_app. f_equal.
  rewrite Z.min_r by lia. replace (zlen a + zlen b - zlen a) with (zlen b) by lia.
  unfold zlen. rewrite Nat2Z.id. apply firstn_all.
Qed.

(** ** Component-level version of add_handle *)
Fixpoint add_at (d : dir) (segs : list text) (leaf : entry) : bool * dir :=
  match segs with
  | [] => (true, d)
  | [c] => (true, dset d c leaf)
  | c :: rest =>
      match get_dir d c with
      | LDirPtr sub => let r := add_at sub rest leaf in (fst r, dset d c (ETree (snd r)))
      | LMonostate => let r := add_at [] rest leaf in (fst r, dset d c (ETree (snd r)))
      | LHandle _ => (false, d)
      end
  end.

Lemma add_at_cons d c rest lf : rest <> [] ->
  add_at d (c :: rest) lf =
      match get_dir d c with
      | LDirPtr sub => let r := add_at sub rest lf in (fst r, dset d c (ETree (snd r)))
      | LMonostate => let r := add_at [] rest lf in (fst r, dset d c (ETree (snd r)))
      | LHandle _ => (false, d)
      end.
Proof. destruct rest; [congruence|reflexivity]. Qed.

Lemma npos_val : npos = 18446744073709551615.
Proof. reflexivity. Qed.
Lemma W_val : W = 18446744073709551616.
Proof. reflexivity. Qed.

(** The loop started at index [it] (whose character is irrelevant) walks the
    segments of the text after [it]. *)
Lemma add_loop_spec fuel pre x segs d lf :
  segs <> [] -> Forall no_slash segs ->
  let p := pre ++ x :: joined segs in
  zlen p < npos ->
  (length segs <= fuel)%nat ->
  add_loop fuel p (zlen pre)
    (find_last_from (joined segs) (zlen pre + 1) (zlen pre)) d lf
  = Ret (add_at d segs lf).
Proof.
  revert pre x d fuel. induction segs as [|s segs IH]; intros pre x d fuel Hne Hf p Hlen Hfuel;
    [congruence|].
  inversion Hf; subst.
  pose proof (zlen_nonneg pre) as Hpre.
  assert (Hp : zlen p = zlen pre + 1 + zlen (joined (s :: segs)))
    by (unfold p; rewrite zlen_app, zlen_cons; lia).
  pose proof (zlen_nonneg (joined (s :: segs))) as Hj.
  rewrite npos_val in Hlen.
  assert (Hw : wrap (zlen pre + 1) = zlen pre + 1).
  { apply wrap_small. rewrite W_val. lia. }
  destruct fuel as [|fuel]; [cbn in Hfuel; lia|].
  cbn [add_loop].
  destruct segs as [|s2 segs].
  - cbn [joined] in *.
    rewrite find_last_from_none by auto.
    rewrite Z.ltb_irrefl, Hw.
    assert (Es : substr p (zlen pre + 1) npos = Ret s).
    { unfold p. replace (pre ++ x :: s) with ((pre ++ [x]) ++ s)
        by (rewrite <- app_assoc; reflexivity).
      replace (zlen pre + 1) with (zlen (pre ++ [x])) by (rewrite zlen_app; reflexivity).
      apply substr_rest. rewrite <- app_assoc. cbn [app]. fold p. rewrite npos_val. lia. }
    rewrite Es. reflexivity.
  - set (rest := s2 :: segs) in *.
    assert (Hr : rest <> []) by (unfold rest; congruence).
    assert (Ej : joined (s :: rest) = s ++ slash :: joined rest) by (now apply joined_cons).
    rewrite Ej in *.
    assert (Hin : In slash (s ++ slash :: joined rest))
      by (apply in_app_iff; right; left; reflexivity).
    pose proof (find_last_from_lower _ (zlen pre + 1) (zlen pre) Hin) as Hlow.
    rewrite !zlen_app, !zlen_cons in *.
    pose proof (zlen_nonneg s). pose proof (zlen_nonneg (joined rest)).
    destruct (Z.ltb_spec (zlen pre)
      (find_last_from (s ++ slash :: joined rest) (zlen pre + 1) (zlen pre))) as [_|Hbad]; [|lia].
    rewrite Hw.
    assert (Ep : p = (pre ++ [x]) ++ s ++ slash :: joined rest)
      by (unfold p; rewrite <- app_assoc; reflexivity).
    assert (Epre : zlen pre + 1 = zlen (pre ++ [x])) by (rewrite zlen_app; reflexivity).
    assert (En : find_first_of p (zlen pre + 1) = zlen pre + 1 + zlen s).
    { unfold find_first_of.
      destruct (Z.ltb_spec (zlen pre + 1) (zlen p)); [|lia].
      rewrite Ep, Epre, skipn_zlen_app, find_slash_from_some by auto. reflexivity. }
    rewrite En.
    replace (zlen pre + 1 + zlen s - zlen pre - 1) with (zlen s) by lia.
    rewrite (wrap_small (zlen s)) by (rewrite W_val; lia).
    assert (Es : substr p (zlen pre + 1) (zlen s) = Ret s)
      by (rewrite Ep, Epre; apply substr_app).
    rewrite Es. cbn [obind].
    rewrite add_at_cons by auto.
    assert (Efin : find_last_from (s ++ slash :: joined rest) (zlen pre + 1) (zlen pre)
      = find_last_from (joined rest) (zlen (pre ++ x :: s) + 1) (zlen (pre ++ x :: s))).
    { rewrite find_last_from_app. cbn [find_last_from].
      destruct (ascii_dec slash slash); [|congruence].
      rewrite zlen_app, zlen_cons. f_equal; lia. }
    assert (Enext : zlen pre + 1 + zlen s = zlen (pre ++ x :: s))
      by (rewrite zlen_app, zlen_cons; lia).
    assert (Ep2 : p = (pre ++ x :: s) ++ slash :: joined rest)
      by (unfold p; rewrite <- app_assoc; reflexivity).
    assert (G : forall d', add_loop fuel p (zlen pre + 1 + zlen s)
        (find_last_from (s ++ slash :: joined rest) (zlen pre + 1) (zlen pre)) d' lf
        = Ret (add_at d' rest lf)).
    { intros d'. rewrite Efin, Enext, Ep2. apply IH; auto.
      - rewrite <- Ep2, npos_val. lia.
      - cbn [length] in *. lia. }
    destruct (get_dir d s); cbn zeta; try (rewrite G; reflexivity). reflexivity.
Qed.

Lemma length_joined segs : (length segs <= S (length (joined segs)))%nat.
Proof.
  induction segs as [|s segs IH]; [cbn; lia|].
  destruct segs; [cbn; lia|]. rewrite joined_cons by congruence.
  rewrite app_length. cbn [length] in *. lia.
Qed.

Lemma add_handle_absolute d q lf :
  good_names q -> zlen (raw_path q) < npos ->
  add_handle d (raw_path q) lf = Ret (add_at d q lf).
Proof.
  intros [Hne Hf] Hlen. unfold add_handle, raw_path in *.
  pose proof (add_loop_spec (S (S (length (slash :: joined q)))) [] slash q d lf Hne Hf) as G.
  cbn [app] in G. unfold find_last_of. cbn [find_last_from].
  destruct (ascii_dec slash slash); [|congruence].
  apply G; auto. pose proof (length_joined q). cbn [length]. lia.
Qed.

(** The character at index 0 is never inspected once a later '/' exists. *)
Lemma add_handle_first_char d c t lf :
  In slash t -> zlen (c :: t) < npos ->
  add_handle d (c :: t) lf = add_handle d (slash :: t) lf.
Proof.
  intros Hin Hlen.
  (* segments of t *)
  destruct (split_loop_spec (S (length t)) t [] ltac:(lia)) as (segs & (Hne & Hf & Hj) & _).
  subst t.
  assert (H2 : forall x, add_handle d (x :: joined segs) lf = Ret (add_at d segs lf)).
  { intros x. unfold add_handle.
    pose proof (add_loop_spec (S (S (length (x :: joined segs)))) [] x segs d lf Hne Hf) as G.
    cbn [app] in G. unfold find_last_of. cbn [find_last_from].
    change (zlen []) with 0 in G.
    rewrite (find_last_from_in _ _ _ 0 Hin). apply G.
    - rewrite zlen_cons in *. exact Hlen.
    - pose proof (length_joined segs). cbn [length]. lia. }
  now rewrite !H2.
Qed.

(** A name without any '/' loses its first character as directory name. *)
Lemma add_handle_relative_name d c t lf :
  no_slash (c :: t) -> zlen (c :: t) < npos ->
  add_handle d (c :: t) lf = Ret (add_at d [t; c :: t] lf).
Proof.
  intros Hn Hlen. unfold add_handle, find_last_of.
  rewrite find_last_from_none by auto.
  cbn [length]. remember (S (S (length t))) as fuel eqn:Ef. cbn [add_loop].
  change (0 <? npos) with true. cbv iota.
  change (wrap (0 + 1)) with 1.
  assert (Hnt : no_slash t) by (intros Hin; apply Hn; now right).
  rewrite zlen_cons in Hlen. pose proof (zlen_nonneg t).
  assert (En : find_first_of (c :: t) 1 = npos).
  { unfold find_first_of. destruct (1 <? zlen (c :: t)); [|reflexivity].
    change (skipn (Z.to_nat 1) (c :: t)) with t. now apply find_slash_from_none. }
  rewrite En.
  assert (Es : substr (c :: t) 1 (wrap (npos - 0 - 1)) = Ret t).
  { unfold substr. rewrite zlen_cons.
    destruct (Z.ltb_spec (zlen t + 1) 1); [lia|].
    change (skipn (Z.to_nat 1) (c :: t)) with t.
    f_equal. rewrite Z.min_r.
    - replace (zlen t + 1 - 1) with (zlen t) by lia. unfold zlen. rewrite Nat2Z.id. apply firstn_all.
    - change (wrap (npos - 0 - 1)) with (npos - 1). lia. }
  rewrite Es. cbn [obind].
  assert (G : forall d', add_loop fuel (c :: t) npos npos d' lf
      = Ret (true, dset d' (c :: t) lf)).
  { intros d'. subst fuel. cbn [add_loop]. rewrite Z.ltb_irrefl.
    change (wrap (npos + 1)) with 0.
    assert (E0 : substr (c :: t) 0 npos = Ret (c :: t)).
    { pose proof (substr_rest [] (c :: t)) as R. apply R. cbn [app]. rewrite zlen_cons. lia. }
    rewrite E0. reflexivity. }
  rewrite add_at_cons by congruence.
  destruct (get_dir d t); cbn zeta; try (rewrite G; reflexivity). reflexivity.
Qed.

Lemma add_handle_empty d lf : add_handle d [] lf = Throws.
Proof. reflexivity. Qed.

(** Every text falls in one of the three classes, so add_handle never runs out
    of fuel and throws only for the empty text. *)
Lemma segments_exist t : exists segs, segs <> [] /\ Forall no_slash segs /\ joined segs = t.
Proof.
  destruct (split_loop_spec (S (length t)) t [] ltac:(lia)) as (segs & (Hne & Hf & Hj) & _).
  eauto.
Qed.

Lemma add_handle_total d p lf :
  p <> [] -> zlen p < npos -> exists ok d', add_handle d p lf = Ret (ok, d').
Proof.
  intros Hp Hlen. destruct p as [|c t]; [congruence|].
  destruct (in_dec ascii_dec slash t) as [Hin|Hin].
  - rewrite add_handle_first_char by auto.
    destruct (segments_exist t) as (segs & Hne & Hf & <-).
    change (slash :: joined segs) with (raw_path segs).
    rewrite add_handle_absolute; [|split; auto|].
    + destruct (add_at d segs lf). eauto.
    + unfold raw_path. rewrite zlen_cons in *. exact Hlen.
  - destruct (ascii_dec c slash) as [->|Hc].
    + destruct (segments_exist t) as (segs & Hne & Hf & <-).
      change (slash :: joined segs) with (raw_path segs).
      rewrite add_handle_absolute; [|split; auto|exact Hlen].
      destruct (add_at d segs lf). eauto.
    + rewrite add_handle_relative_name; auto.
      * destruct (add_at d [t; c :: t] lf). eauto.
      * intros [H|H]; congruence.
Qed.

(** ** The view of a tree *)
Fixpoint node_at (d : dir) (p : list text) : node :=
  match p with
  | [] => Virtual
  | c :: rest =>
      match dfind d c with
      | None => Absent
      | Some (EFile fd) => match rest with [] => AFile fd | _ => Absent end
      | Some (EDirH fd) => match rest with [] => ADir fd | _ => Absent end
      | Some (ETree sub) => node_at sub rest
      end
  end.

Lemma is_prefix_spec p q : is_prefix p q = true <-> exists t, q = p ++ t.
Proof.
  revert q. induction p as [|a p IH]; intros q; cbn.
  - split; eauto.
  - destruct q as [|b q].
    + split; [discriminate|]. intros (t & H). discriminate.
    + destruct (text_eq_dec a b) as [->|Hab].
      * rewrite IH. split; intros (t & H); exists t; [now subst|now injection H].
      * split; [discriminate|]. intros (t & H). injection H as H _. congruence.
Qed.

Lemma strict_prefix_spec p q : strict_prefix p q = true <-> exists a t, q = p ++ a :: t.
Proof.
  unfold strict_prefix. rewrite andb_true_iff, is_prefix_spec, negb_true_iff, Nat.eqb_neq.
  split.
  - intros ((t & ->) & Hlen). destruct t as [|a t].
    + rewrite app_nil_r in Hlen. congruence.
    + eauto.
  - intros (a & t & ->). split; [eauto|]. rewrite app_length. cbn. lia.
Qed.

Lemma strict_prefix_cons a b p q :
  strict_prefix (a :: p) (b :: q) = (if text_eq_dec a b then strict_prefix p q else false).
Proof. unfold strict_prefix. cbn. destruct (text_eq_dec a b); reflexivity. Qed.

Lemma strict_prefix_nil_r p : strict_prefix p [] = false.
Proof. unfold strict_prefix. destruct p; reflexivity. Qed.

Lemma strict_prefix_nil_l a q : strict_prefix [] (a :: q) = true.
Proof. reflexivity. Qed.

(** Refused adds: exactly those below an exported directory; nothing changes. *)
Lemma add_at_ok_fresh segs lf : fst (add_at [] segs lf) = true.
Proof.
  induction segs as [|c segs IH]; [reflexivity|].
  destruct segs; [reflexivity|]. rewrite add_at_cons by congruence. exact IH.
Qed.

Lemma add_at_false d segs lf d' :
  add_at d segs lf = (false, d') -> d' = d /\ below_exported_dir (node_at d) segs.
Proof.
  revert d d'. induction segs as [|c segs IH]; intros d d' H; [discriminate|].
  destruct segs as [|c2 segs]; [discriminate|].
  rewrite add_at_cons in H by congruence.
  unfold get_dir in H. destruct (dfind d c) as [[sub|fd|fd]|] eqn:E; cbn zeta in H.
  - destruct (add_at sub (c2 :: segs) lf) as [ok sub'] eqn:Ea. cbn in H. injection H as -> <-.
    destruct (IH _ _ Ea) as [-> (r & fd & Hr & Hv)]. split.
    + now apply dset_same.
    + exists (c :: r), fd. rewrite strict_prefix_cons.
      destruct (text_eq_dec c c); [|congruence]. split; auto. cbn. now rewrite E.
  - pose proof (add_at_ok_fresh (c2 :: segs) lf) as F. apply (f_equal fst) in H. cbn [fst] in H. rewrite F in H. discriminate.
  - injection H as <-. split; auto. exists [c], fd. split.
    + rewrite strict_prefix_cons. destruct (text_eq_dec c c); [|congruence]. apply strict_prefix_nil_l.
    + cbn. now rewrite E.
  - pose proof (add_at_ok_fresh (c2 :: segs) lf) as F. apply (f_equal fst) in H. cbn [fst] in H. rewrite F in H. discriminate.
Qed.

Definition node_of_entry (e : entry) : node :=
  match e with EFile fd => AFile fd | EDirH fd => ADir fd | ETree _ => Virtual end.

Lemma node_at_nil p : node_at [] p = empty_view p.
Proof. destruct p; reflexivity. Qed.

Lemma exported_cons v c q n p : 
  (forall r, r <> [] -> v r = v r) ->
  exported v (c :: q) n p =
  match p with
  | [] => Virtual
  | a :: p' => if text_eq_dec a c then exported (fun r => v (c :: r)) q n p' else v p
  end.
Proof.
  intros _. unfold exported. destruct p as [|a p'].
  - destruct (names_eq_dec [] (c :: q)); [discriminate|]. now rewrite strict_prefix_nil_l.
  - rewrite !strict_prefix_cons.
    destruct (text_eq_dec a c) as [->|Hac].
    + destruct (text_eq_dec c c); [|congruence].
      destruct (names_eq_dec (c :: p') (c :: q)) as [E|E];
      destruct (names_eq_dec p' q) as [E'|E']; try congruence; reflexivity.
    + destruct (names_eq_dec (a :: p') (c :: q)) as [E|E]; [congruence|].
      destruct (text_eq_dec c a); [congruence|]. reflexivity.
Qed.

Lemma exported_ext v v' q n p : (forall r, v r = v' r) -> exported v q n p = exported v' q n p.
Proof. intros H. unfold exported. rewrite H. reflexivity. Qed.

Lemma below_ext v v' q : (forall r, v r = v' r) -> below_exported_dir v q -> below_exported_dir v' q.
Proof. intros H (r & fd & Hr & Hv). exists r, fd. now rewrite <- H. Qed.

Lemma exported_root_irrelevant v v' q n p :
  q <> [] -> (forall r, r <> [] -> v r = v' r) -> exported v q n p = exported v' q n p.
Proof.
  intros Hq H. unfold exported. destruct (names_eq_dec p q); auto.
  destruct (strict_prefix p q) eqn:E; auto. destruct (strict_prefix q p); auto.
  destruct p; [|apply H; congruence].
  destruct q; [congruence|]. discriminate E.
Qed.

Lemma add_at_true d segs lf d' :
  segs <> [] ->
  (match lf with ETree _ => False | _ => True end) ->
  add_at d segs lf = (true, d') ->
  ~ below_exported_dir (node_at d) segs /\
  forall p, node_at d' p = exported (node_at d) segs (node_of_entry lf) p.
Proof.
  intros Hne Hlf. revert d d' Hne. induction segs as [|c segs IH]; intros d d' Hne H; [congruence|].
  destruct segs as [|c2 segs].
  - cbn in H. injection H as <-. split.
    + intros (r & fd & Hr & Hv). destruct r as [|a r]; [discriminate Hv|].
      rewrite strict_prefix_cons in Hr. destruct (text_eq_dec a c); [|discriminate].
      rewrite strict_prefix_nil_r in Hr. discriminate.
    + intros p. rewrite exported_cons by auto. destruct p as [|a p]; [reflexivity|].
      cbn [node_at]. rewrite dfind_dset.
      destruct (text_eq_dec c a) as [->|Hca].
      * destruct (text_eq_dec a a); [|congruence].
        unfold exported. destruct (names_eq_dec p []) as [->|Hp].
        -- destruct lf; [destruct Hlf|reflexivity|reflexivity].
        -- rewrite strict_prefix_nil_r. destruct p; [congruence|]. rewrite strict_prefix_nil_l.
           destruct lf; [destruct Hlf|reflexivity|reflexivity].
      * destruct (text_eq_dec a c); [congruence|]. reflexivity.
  - set (rest := c2 :: segs) in *.
    assert (Hr : rest <> []) by (unfold rest; congruence).
    rewrite add_at_cons in H by auto.
    assert (Gen : forall sub sub',
       (forall r, r <> [] -> node_at sub r = node_at d (c :: r)) ->
       (match dfind d c with Some (EDirH _) => False | _ => True end) ->
       add_at sub rest lf = (true, sub') ->
       d' = dset d c (ETree sub') ->
       ~ below_exported_dir (node_at d) (c :: rest) /\
       forall p, node_at d' p = exported (node_at d) (c :: rest) (node_of_entry lf) p).
    { intros sub sub' Hsub Hnd Ha ->. destruct (IH sub sub' Hr Ha) as [Hb Hv]. split.
      - intros (r & fd & Hpr & Hnode). destruct r as [|a r]; [discriminate Hnode|].
        rewrite strict_prefix_cons in Hpr. destruct (text_eq_dec a c) as [->|]; [|discriminate].
        destruct r as [|b r].
        + cbn in Hnode. destruct (dfind d c) as [[| |]|]; try discriminate. destruct Hnd.
        + apply Hb. exists (b :: r), fd. split; auto. rewrite Hsub by congruence. exact Hnode.
      - intros p. rewrite exported_cons by auto. destruct p as [|a p]; [reflexivity|].
        cbn [node_at]. rewrite dfind_dset.
        destruct (text_eq_dec c a) as [->|Hca].
        + destruct (text_eq_dec a a); [|congruence].
          rewrite Hv. apply exported_root_irrelevant; auto.
        + destruct (text_eq_dec a c); [congruence|]. reflexivity. }
    unfold get_dir in H. destruct (dfind d c) as [[sub|fd|fd]|] eqn:E; cbn zeta in H.
    + destruct (add_at sub rest lf) as [ok sub'] eqn:Ea. cbn in H. injection H as -> <-.
      apply (Gen sub sub'); auto. intros r _. cbn. now rewrite E.
    + destruct (add_at [] rest lf) as [ok sub'] eqn:Ea. cbn in H. injection H as -> <-.
      apply (Gen [] sub'); auto. intros r Hrr. cbn. rewrite E. destruct r; [congruence|reflexivity].
    + discriminate.
    + destruct (add_at [] rest lf) as [ok sub'] eqn:Ea. cbn in H. injection H as -> <-.
      apply (Gen [] sub'); auto. intros r Hrr. cbn. rewrite E. destruct r; [congruence|reflexivity].
Qed.

(** ** Histories *)
Lemma history_ok calls :
  forall h v d,
  history h v -> (forall p, node_at d p = v p) ->
  Forall (fun c => good_names (fst c) /\ zlen (raw_path (fst c)) < npos) calls ->
  exists oks t v',
    run_adds d (map (fun c => (raw_path (fst c), snd c)) calls) = Ret (oks, t) /\
    length oks = length calls /\
    history (h ++ combine calls oks) v' /\
    (forall p, node_at t p = v' p).
Proof.
  induction calls as [|[q l] calls IH]; intros h v d Hh Hv Hc.
  - exists [], d, v. cbn. rewrite app_nil_r. auto.
  - inversion Hc as [|? ? [Hg Hl] Hc']; subst. cbn [fst] in Hg, Hl.
    cbn [map run_adds fst snd].
    assert (E : add_call d (raw_path q, l) = Ret (add_at d q (entry_of_leaf l))).
    { unfold add_call, add_file, add_directory. cbn [fst snd].
      destruct l; now apply add_handle_absolute. }
    rewrite E. cbn [obind].
    destruct (add_at d q (entry_of_leaf l)) as [ok d'] eqn:Ea. cbn [fst snd].
    assert (Hn : node_of_entry (entry_of_leaf l) = node_of_leaf l) by (destruct l; reflexivity).
    destruct ok.
    + apply add_at_true in Ea as [Hb Hv']; [|apply Hg|destruct l; exact I].
      destruct (IH (h ++ [(q, l, true)]) (exported v q (node_of_leaf l)) d')
        as (oks & t & v' & Hrun & Hlen & Hh' & Ht); auto.
      { constructor; auto. intros Hbe. apply Hb. eapply below_ext; [|exact Hbe]. auto. }
      { intros p. rewrite Hv', Hn. now apply exported_ext. }
      exists (true :: oks), t, v'. rewrite Hrun. cbn. rewrite <- app_assoc in Hh'. cbn in Hh'. auto.
    + apply add_at_false in Ea as [-> Hb].
      destruct (IH (h ++ [(q, l, false)]) v d)
        as (oks & t & v' & Hrun & Hlen & Hh' & Ht); auto.
      { constructor; auto. eapply below_ext; [|exact Hb]. auto. }
      exists (false :: oks), t, v'. rewrite Hrun. cbn. rewrite <- app_assoc in Hh'. cbn in Hh'. auto.
Qed.

(** ** Lookups *)
Lemma lookup_file_cs d a cs :
  lookup_file d (mkPath a cs) =
  match lookup_walk d cs with
  | WFound fd rest => Some (fd, path_of_range rest)
  | WNothing => None
  | WAt d' (c :: _) =>
      match get_file d' c with Some fd => Some (fd, empty_path) | None => None end
  | WAt d' [] => None
  end.
Proof.
  unfold lookup_file. cbn [comps]. destruct (Nat.ltb_spec 1 (length cs)); [reflexivity|].
  destruct cs as [|c [|c' cs]]; try reflexivity. cbn in *. lia.
Qed.

Lemma lookup_walk_cons d c rest : rest <> [] ->
  lookup_walk d (c :: rest) =
      match get_dir d c with
      | LDirPtr sub => lookup_walk sub rest
      | LHandle fd => WFound fd rest
      | LMonostate => WNothing
      end.
Proof. destruct rest; [congruence|reflexivity]. Qed.

Lemma lookup_some d a cs fd tail :
  lookup_file d (mkPath a cs) = Some (fd, tail) <->
  is_abs tail = false /\
  ((comps tail = [] /\ node_at d cs = AFile fd) \/
   (comps tail <> [] /\ exists q, cs = q ++ comps tail /\ node_at d q = ADir fd)).
Proof.
  rewrite lookup_file_cs. revert d. induction cs as [|c cs IH]; intros d.
  - cbn. split; [discriminate|]. intros (_ & [(_ & H)|(Hne & q & Hq & _)]); [discriminate|].
    symmetry in Hq. apply app_eq_nil in Hq as [_ Hq]. contradiction.
  - destruct cs as [|c2 cs].
    + cbn [lookup_walk]. unfold get_file. cbn [node_at].
      split.
      * destruct (dfind d c) as [[sub|f|f]|]; try discriminate.
        intros H. injection H as <- <-. cbn. auto.
      * intros (Ha & [(Ht & H)|(Hne & q & Hq & H)]).
        -- destruct (dfind d c) as [[sub|f|f]|]; try discriminate.
           injection H as <-. destruct tail as [ta tc]; cbn in *; subst. reflexivity.
        -- destruct q as [|x q]; [discriminate H|].
           injection Hq as <- Hq. symmetry in Hq. apply app_eq_nil in Hq as [_ Hq]. contradiction.
    + set (rest := c2 :: cs) in *.
      assert (Hr : rest <> []) by (unfold rest; congruence).
      rewrite lookup_walk_cons by auto. cbn [node_at]. unfold get_dir.
      destruct (dfind d c) as [[sub|f|f]|] eqn:E.
      * rewrite IH. split; intros (Ha & [(Ht & H)|(Hne & q & Hq & H)]); (split; [exact Ha|]).
        -- left. auto.
        -- right. split; auto. exists (c :: q). rewrite Hq. split; auto. cbn. now rewrite E.
        -- left. auto.
        -- right. split; auto. destruct q as [|x q]; [discriminate H|].
           injection Hq as <- Hq. exists q. split; auto. cbn in H. now rewrite E in H.
      * split; [discriminate|]. intros (Ha & [(Ht & H)|(Hne & q & Hq & H)]).
        -- destruct rest; [congruence|discriminate].
        -- destruct q as [|x q]; [discriminate H|]. injection Hq as <- Hq.
           cbn in H. rewrite E in H. destruct q; discriminate.
      * split.
        -- intros H. injection H as <- <-. split; [reflexivity|]. right. split; [auto|].
           exists [c]. split; [reflexivity|]. cbn. now rewrite E.
        -- intros (Ha & [(Ht & H)|(Hne & q & Hq & H)]).
           ++ destruct rest; [congruence|discriminate].
           ++ destruct q as [|x q]; [discriminate H|]. injection Hq as <- Hq.
              cbn in H. rewrite E in H. destruct q; [|discriminate]. injection H as <-.
              cbn in Hq. destruct tail as [ta tc]; cbn in *; subst. reflexivity.
      * split; [discriminate|]. intros (Ha & [(Ht & H)|(Hne & q & Hq & H)]).
        -- discriminate.
        -- destruct q as [|x q]; [discriminate H|]. injection Hq as <- Hq.
           cbn in H. rewrite E in H. destruct q; discriminate.
Qed.

(** ** Where the nodes of a view come from *)
Lemma history_source h v :
  history h v ->
  (forall q fd, v q = AFile fd -> In (q, LeafFile fd, true) h) /\
  (forall q fd, v q = ADir fd -> In (q, LeafDir fd, true) h).
Proof.
  induction 1 as [|h v q l Hh [IHf IHd] Hb|h v q l Hh [IHf IHd] Hb].
  - split; intros [|? ?] fd H; discriminate.
  - split; intros p fd H; unfold exported in H;
    (destruct (names_eq_dec p q) as [->|];
      [destruct l; cbn in H; inversion H; subst; apply in_app_iff; right; left; reflexivity|]);
    (destruct (strict_prefix p q); [discriminate|]);
    (destruct (strict_prefix q p); [discriminate|]);
    apply in_app_iff; left; auto.
  - split; intros p fd H; apply in_app_iff; left; auto.
Qed.

Lemma option_pair_ext {A} (x y : option A) : (forall r, x = Some r <-> y = Some r) -> x = y.
Proof.
  intros H. destruct x as [a|], y as [b|]; auto.
  - symmetry. now apply H.
  - symmetry. now apply H.
  - now apply H.
Qed.

Lemma lookup_ext d d' a cs :
  node_at d cs = node_at d' cs ->
  (forall q t, cs = q ++ t -> t <> [] -> forall fd, node_at d q = ADir fd <-> node_at d' q = ADir fd) ->
  lookup_file d (mkPath a cs) = lookup_file d' (mkPath a cs).
Proof.
  intros H1 H2. apply option_pair_ext. intros [fd tail]. rewrite !lookup_some, H1.
  split; (intros (Ha & [H|(Hne & q & Hq & H)]); (split; [exact Ha|]);
    [left; exact H|right; split; auto; exists q; split; auto; eapply H2; eauto]).
Qed.

Lemma add_handle_effect d q l d' :
  good_names q -> zlen (raw_path q) < npos ->
  add_call d (raw_path q, l) = Ret (true, d') ->
  ~ below_exported_dir (node_at d) q /\
  forall p, node_at d' p = exported (node_at d) q (node_of_leaf l) p.
Proof.
  intros Hg Hl H.
  assert (E : add_call d (raw_path q, l) = Ret (add_at d q (entry_of_leaf l))).
  { unfold add_call, add_file, add_directory. cbn [fst snd]. destruct l; now apply add_handle_absolute. }
  rewrite E in H. injection H as H.
  assert (Hn : node_of_entry (entry_of_leaf l) = node_of_leaf l) by (destruct l; reflexivity).
  rewrite <- Hn. apply add_at_true; auto; [apply Hg|destruct l; exact I].
Qed.

Lemma add_call_cases d q l :
  good_names q -> zlen (raw_path q) < npos ->
  (below_exported_dir (node_at d) q /\ add_call d (raw_path q, l) = Ret (false, d)) \/
  (~ below_exported_dir (node_at d) q /\ exists d', add_call d (raw_path q, l) = Ret (true, d')).
Proof.
  intros Hg Hl.
  assert (E : add_call d (raw_path q, l) = Ret (add_at d q (entry_of_leaf l))).
  { unfold add_call, add_file, add_directory. cbn [fst snd]. destruct l; now apply add_handle_absolute. }
  rewrite E. destruct (add_at d q (entry_of_leaf l)) as [[|] d'] eqn:Ea.
  - right. apply add_at_true in Ea as [Hb _]; [|apply Hg|destruct l; exact I]. split; eauto.
  - left. apply add_at_false in Ea as [-> Hb]. auto.
Qed.

(** The handle lookup would return for a request below [q]. *)
Lemma below_exported_dir_lookup d a q :
  below_exported_dir (node_at d) q <->
  exists fd tail, lookup_file d (mkPath a q) = Some (fd, tail) /\ comps tail <> [].
Proof.
  split.
  - intros (r & fd & Hr & Hv). apply strict_prefix_spec in Hr as (x & t & ->).
    exists fd, (path_of_range (x :: t)). split; [|cbn; congruence].
    apply lookup_some. split; [reflexivity|]. right. split; [cbn; congruence|].
    exists r. auto.
  - intros (fd & tail & H & Hne). apply lookup_some in H as (_ & [(He & _)|(_ & r & -> & Hv)]); [congruence|].
    exists r, fd. split; auto. apply strict_prefix_spec.
    destruct (comps tail); [congruence|eauto].
Qed.

Lemma strict_prefix_app_false q t : strict_prefix (q ++ t) q = false.
Proof.
  destruct (strict_prefix (q ++ t) q) eqn:E; auto.
  apply strict_prefix_spec in E as (a & s & E). apply (f_equal (@length _)) in E.
  rewrite !app_length in E. cbn in E. lia.
Qed.

Lemma accepted_add_lookups d q l d' :
  good_names q -> zlen (raw_path q) < npos ->
  add_call d (raw_path q, l) = Ret (true, d') ->
  (forall fd a, l = LeafFile fd -> lookup_file d' (mkPath a q) = Some (fd, empty_path)) /\
  (forall fd a t, l = LeafDir fd -> t <> [] ->
     lookup_file d' (mkPath a (q ++ t)) = Some (fd, path_of_range t)) /\
  (forall a p, is_prefix q p = false -> is_prefix p q = false ->
     lookup_file d' (mkPath a p) = lookup_file d (mkPath a p)) /\
  (forall a p, strict_prefix p q = true -> lookup_file d' (mkPath a p) = None) /\
  (forall fd a t, l = LeafFile fd -> t <> [] -> lookup_file d' (mkPath a (q ++ t)) = None).
Proof.
  intros Hg Hl H. destruct (add_handle_effect _ _ _ _ Hg Hl H) as [Hb Hv].
  assert (Hq : node_at d' q = node_of_leaf l).
  { rewrite Hv. unfold exported. destruct (names_eq_dec q q); [reflexivity|congruence]. }
  assert (Hpre : forall r, strict_prefix r q = true -> node_at d' r = Virtual).
  { intros r Hr. rewrite Hv. unfold exported. destruct (names_eq_dec r q) as [->|].
    - apply strict_prefix_spec in Hr as (a & t & E). apply (f_equal (@length _)) in E.
      rewrite app_length in E. cbn in E. lia.
    - now rewrite Hr. }
  assert (Hdesc : forall t, t <> [] -> node_at d' (q ++ t) = Absent).
  { intros t Ht. rewrite Hv. unfold exported. destruct (names_eq_dec (q ++ t) q) as [E|].
    - apply (f_equal (@length _)) in E. rewrite app_length in E. destruct t; [congruence|]. cbn in E. lia.
    - rewrite strict_prefix_app_false.
      destruct (strict_prefix q (q ++ t)) eqn:E; auto.
      destruct t as [|x t]; [congruence|].
      assert (strict_prefix q (q ++ x :: t) = true) by (apply strict_prefix_spec; eauto). congruence. }
  split; [|split; [|split; [|split]]].
  - intros fd a ->. apply lookup_some. split; [reflexivity|]. left. auto.
  - intros fd a t -> Ht. apply lookup_some. split; [reflexivity|]. right. split; auto. exists q. auto.
  - intros a p H1 H2. apply lookup_ext.
    + rewrite Hv. unfold exported. destruct (names_eq_dec p q) as [->|].
      * assert (is_prefix q q = true) by (apply is_prefix_spec; exists []; now rewrite app_nil_r). congruence.
      * unfold strict_prefix. now rewrite H1, H2.
    + intros r t Hp Ht fd. destruct (strict_prefix r q) eqn:E.
      * rewrite (Hpre _ E). split; [discriminate|]. intros Hd. exfalso. apply Hb. exists r, fd. auto.
      * rewrite Hv. unfold exported.
        destruct (names_eq_dec r q) as [->|].
        { assert (is_prefix q p = true) by (apply is_prefix_spec; exists t; auto). congruence. }
        rewrite E. destruct (strict_prefix q r) eqn:E2; [|tauto].
        apply strict_prefix_spec in E2 as (x & s & ->).
        assert (is_prefix q p = true); [|congruence].
        apply is_prefix_spec. exists (x :: s ++ t). rewrite Hp, <- app_assoc. reflexivity.
  - intros a p Hp. destruct (lookup_file d' (mkPath a p)) as [[fd tail]|] eqn:E; auto.
    apply lookup_some in E as (_ & [(_ & Hn)|(Hne & r & -> & Hn)]).
    + rewrite Hpre in Hn by auto. discriminate.
    + rewrite Hpre in Hn; [discriminate|]. apply strict_prefix_spec in Hp as (x & s & ->).
      apply strict_prefix_spec. destruct (comps tail) as [|y u]; [congruence|].
      exists y, (u ++ x :: s). now rewrite <- app_assoc.
  - intros fd a t -> Ht. destruct (lookup_file d' (mkPath a (q ++ t))) as [[fd' tail]|] eqn:E; auto.
    apply lookup_some in E as (_ & [(_ & Hn)|(Hne & r & Heq & Hn)]).
    + rewrite Hdesc in Hn by auto. discriminate.
    + destruct (is_prefix q r) eqn:E1.
      * apply is_prefix_spec in E1 as (s & ->). destruct s as [|x s].
        -- rewrite app_nil_r, Hq in Hn. discriminate.
        -- rewrite Hdesc in Hn by congruence. discriminate.
      * assert (Hs : strict_prefix r q = true).
        { assert (Hlen : (length r < length q)%nat).
          { destruct (Nat.ltb_spec (length r) (length q)); auto. exfalso.
            assert (is_prefix q r = true); [|congruence].
            apply is_prefix_spec. exists (skipn (length q) r).
            assert (F : firstn (length q) (q ++ t) = firstn (length q) (r ++ comps tail)) by now rewrite Heq.
            rewrite firstn_app, firstn_all, Nat.sub_diag in F. cbn in F. rewrite app_nil_r in F.
            rewrite firstn_app in F. replace (length q - length r)%nat with 0%nat in F by lia.
            cbn in F. rewrite app_nil_r in F. rewrite F at 1. symmetry. apply firstn_skipn. }
          apply strict_prefix_spec.
          assert (F : firstn (length r) (q ++ t) = firstn (length r) (r ++ comps tail)) by now rewrite Heq.
          rewrite (firstn_app (length r) r), firstn_all, Nat.sub_diag in F. cbn in F. rewrite app_nil_r in F.
          rewrite firstn_app in F. replace (length r - length q)%nat with 0%nat in F by lia.
          cbn in F. rewrite app_nil_r in F.
          destruct (skipn (length r) q) as [|x s] eqn:Es.
          - exfalso. apply (f_equal (@length _)) in Es. rewrite skipn_length in Es. cbn in Es. lia.
          - exists x, s. rewrite <- F, <- Es. symmetry. apply firstn_skipn. }
        rewrite Hpre in Hn by auto. discriminate.
Qed.

(** Confinement, in terms of the calls made. *)
Lemma lookup_confined calls oks t a cs fd tail :
  Forall (fun c => good_names (fst c) /\ zlen (raw_path (fst c)) < npos) calls ->
  run_adds [] (map (fun c => (raw_path (fst c), snd c)) calls) = Ret (oks, t) ->
  lookup_file t (mkPath a cs) = Some (fd, tail) ->
  exists q, cs = q ++ comps tail /\ is_abs tail = false /\
    ((comps tail = [] /\ In (q, LeafFile fd, true) (combine calls oks)) \/
     (comps tail <> [] /\ In (q, LeafDir fd, true) (combine calls oks))).
Proof.
  intros Hc Hr Hl.
  destruct (history_ok calls [] empty_view [] H_empty node_at_nil Hc)
    as (oks' & t' & v & Hr' & _ & Hh & Hv).
  rewrite Hr in Hr'. injection Hr' as <- <-. cbn [app] in Hh.
  apply history_source in Hh as [Hf Hd].
  apply lookup_some in Hl as (Ha & [(He & Hn)|(Hne & q & -> & Hn)]).
  - exists cs. rewrite He, app_nil_r. repeat split; auto. left. split; auto. apply Hf. now rewrite <- Hv.
  - exists q. repeat split; auto. right. split; auto. apply Hd. now rewrite <- Hv.
Qed.

Lemma lookup_refines calls :
  Forall (fun c => good_names (fst c) /\ zlen (raw_path (fst c)) < npos) calls ->
  exists oks t v,
    run_adds [] (map (fun c => (raw_path (fst c), snd c)) calls) = Ret (oks, t) /\
    length oks = length calls /\
    history (combine calls oks) v /\
    forall a cs fd tail,
      lookup_file t (mkPath a cs) = Some (fd, tail) <->
      is_abs tail = false /\
      ((comps tail = [] /\ v cs = AFile fd) \/
       (comps tail <> [] /\ exists q, cs = q ++ comps tail /\ v q = ADir fd)).
Proof.
  intros Hc.
  destruct (history_ok calls [] empty_view [] H_empty node_at_nil Hc)
    as (oks & t & v & Hr & Hlen & Hh & Hv).
  exists oks, t, v. split; [exact Hr|]. split; [exact Hlen|]. split; [exact Hh|].
  intros a cs fd tail. rewrite lookup_some. rewrite Hv.
  split; (intros (Ha & [H|(Hne & q & Hq & H)]); (split; [exact Ha|]);
    [left; exact H|right; split; auto; exists q; split; auto]).
  - now rewrite <- Hv.
  - now rewrite Hv.
Qed.

Lemma relative_name_misfiled c t lf :
  no_slash (c :: t) -> zlen (c :: t) < npos ->
  exists d', add_call [] (c :: t, LeafFile lf) = Ret (true, d') /\
    lookup_file d' (mkPath true [c :: t]) = None /\
    lookup_file d' (mkPath true [t; c :: t]) = Some (lf, empty_path).
Proof.
  intros Hn Hl. unfold add_call, add_file. cbn [fst snd].
  rewrite add_handle_relative_name by auto. cbn [add_at get_dir dfind fst snd dset].
  eexists. split; [reflexivity|].
  unfold lookup_file. cbn [comps length Nat.ltb Nat.leb lookup_walk]. unfold get_file, get_dir. cbn [dfind].
  split.
  - destruct (text_eq_dec t (c :: t)) as [E|]; [|reflexivity].
    apply (f_equal (@length _)) in E. cbn in E. lia.
  - destruct (text_eq_dec t t); [|congruence]. cbn [dfind].
    destruct (text_eq_dec (c :: t) (c :: t)); [|congruence]. reflexivity.
Qed.
