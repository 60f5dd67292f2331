From Coq Require Import String Ascii List ZArith Bool Lia Arith.
From Verif Require Import Base PathModel PathSpec.
Import ListNotations.

Lemma next_separator_spec cur :
  match next_separator cur with
  | (true, n) => exists pre n', cur = pre ++ n /\ n = slash :: n' /\ no_slash pre
  | (false, n) => no_slash cur
  end.
Proof.
  remember (length cur) as k eqn:Hk. revert cur Hk.
  induction k as [k IH] using lt_wf_ind. intros cur Hk.
  destruct cur as [|c rest]; cbn.
  - intros [].
  - destruct (ascii_dec c slash) as [->|Hc].
    + exists [], rest. repeat split; auto. intros [].
    + destruct rest as [|d rest'].
      * intros [->|[]]; congruence.
      * destruct (ascii_dec d backslash) as [->|Hd].
        -- assert (IH' := IH (length rest') ltac:(cbn in Hk; lia) rest' eq_refl).
           destruct (next_separator rest') as [[|] n].
           ++ destruct IH' as (pre & n' & -> & -> & Hp).
              exists (c :: backslash :: pre), n'. repeat split; auto.
              intros [E|[E|E]]; [congruence|discriminate|now apply Hp].
           ++ intros [E|[E|E]]; [congruence|discriminate|now apply IH'].
        -- assert (IH' := IH (length (d :: rest')) ltac:(cbn in *; lia) (d :: rest') eq_refl).
           change ((fix next_separator (cur : text) : bool * text :=
             match cur with
             | [] => (false, [])
             | c0 :: rest => if ascii_dec c0 slash then (true, cur) else
               match rest with
               | [] => (false, [])
               | d0 :: rest'0 => if ascii_dec d0 backslash then next_separator rest'0
                 else next_separator rest end end) (d :: rest')) with (next_separator (d :: rest')) in *.
           destruct (next_separator (d :: rest')) as [[|] n] eqn:E.
           ++ destruct IH' as (pre & n' & Hpre & -> & Hp).
              exists (c :: pre), n'. cbn in E. rewrite Hpre. 
              split; [reflexivity|]. split; [reflexivity|].
              intros [E'|E']; [congruence|now apply Hp].
           ++ intros [E'|E']; [congruence|now apply IH'].
Qed.

Lemma between_app pre n : between (pre ++ n) n = pre.
Proof.
  unfold between. rewrite app_length.
  replace (length pre + length n - length n) with (length pre) by lia.
  rewrite firstn_app, firstn_all, Nat.sub_diag. cbn. now rewrite app_nil_r.
Qed.

Lemma drop_trailing_empty_cons x l :
  l <> [] -> drop_trailing_empty (x :: l) = x :: drop_trailing_empty l.
Proof.
  intros Hl. unfold drop_trailing_empty. cbn.
  destruct (rev l) as [|y r] eqn:E.
  - exfalso. apply Hl. rewrite <- (rev_involutive l), E. reflexivity.
  - cbn. destruct y; auto. rewrite rev_app_distr. reflexivity.
Qed.

Lemma drop_trailing_empty_one b :
  drop_trailing_empty [b] = match b with [] => [] | _ => [b] end.
Proof. destruct b; reflexivity. Qed.

Lemma drop_trailing_empty_snoc_nil l : drop_trailing_empty (l ++ [[]]) = l.
Proof. unfold drop_trailing_empty. rewrite rev_app_distr. cbn. apply rev_involutive. Qed.

Lemma drop_trailing_empty_snoc l b : b <> [] -> drop_trailing_empty (l ++ [b]) = l ++ [b].
Proof. unfold drop_trailing_empty. rewrite rev_app_distr. cbn. destruct b; congruence. Qed.

Lemma joined_cons x l : l <> [] -> joined (x :: l) = x ++ slash :: joined l.
Proof. destruct l; cbn; congruence. Qed.

Lemma joined_snoc l b : l <> [] -> joined (l ++ [b]) = joined l ++ slash :: b.
Proof.
  induction l as [|x l IH]; intros Hl; [congruence|].
  destruct l as [|y l].
  - reflexivity.
  - change ((x :: y :: l) ++ [b]) with (x :: ((y :: l) ++ [b])).
    rewrite joined_cons by (cbn; congruence).
    rewrite IH by congruence. rewrite (joined_cons x (y :: l)) by congruence.
    rewrite <- app_assoc. reflexivity.
Qed.

Lemma split_loop_spec fuel b acc :
  length b < fuel ->
  exists segs, segments_of b segs /\
    split_loop fuel b acc = Ret (acc ++ drop_trailing_empty segs).
Proof.
  revert b acc. induction fuel as [|fuel IH]; intros b acc Hf; [lia|].
  cbn [split_loop].
  pose proof (next_separator_spec b) as Hn.
  destruct (next_separator b) as [[|] n].
  - destruct Hn as (pre & n' & -> & -> & Hp).
    cbv zeta. rewrite between_app.
    destruct (IH n' (acc ++ [pre])) as (segs & (Hne & Hall & Hj) & Heq).
    { rewrite app_length in Hf. cbn in Hf. lia. }
    exists (pre :: segs). split.
    + split; [congruence|]. split; [constructor; auto|].
      rewrite joined_cons by auto. now rewrite Hj.
    + rewrite Heq. rewrite drop_trailing_empty_cons by auto.
      now rewrite <- app_assoc.
  - exists [b]. split.
    + split; [congruence|]. split; [constructor; auto|reflexivity].
    + rewrite drop_trailing_empty_one. destruct b; [now rewrite app_nil_r|reflexivity].
Qed.

Lemma no_slash_split_unique p1 q1 p2 q2 :
  no_slash p1 -> no_slash p2 -> p1 ++ slash :: q1 = p2 ++ slash :: q2 -> p1 = p2 /\ q1 = q2.
Proof.
  revert p2. induction p1 as [|a p1 IH]; intros p2 H1 H2 E; destruct p2 as [|b p2]; cbn in E.
  - injection E as E. auto.
  - injection E as E1 E2. subst. exfalso. apply H2. left. reflexivity.
  - injection E as E1 E2. subst. exfalso. apply H1. left. reflexivity.
  - injection E as E1 E2. subst. destruct (IH p2) as [-> ->]; auto.
    + intros Hin; apply H1; right; auto.
    + intros Hin; apply H2; right; auto.
Qed.

Lemma joined_no_slash_false pre q t : no_slash t -> pre ++ slash :: q = t -> False.
Proof. intros H E. apply H. rewrite <- E. apply in_app_iff. right. left. reflexivity. Qed.

Lemma segments_of_unique t s1 s2 : segments_of t s1 -> segments_of t s2 -> s1 = s2.
Proof.
  intros (N1 & F1 & J1) (N2 & F2 & J2). subst t.
  revert s2 N2 F2 J2. induction s1 as [|a s1 IH]; intros s2 N2 F2 J2; [congruence|].
  destruct s2 as [|b s2]; [congruence|].
  inversion F1; inversion F2; subst.
  destruct s1 as [|a' s1]; destruct s2 as [|b' s2].
  - cbn in J2. congruence.
  - rewrite (joined_cons b) in J2 by congruence. cbn [joined] in J2.
    exfalso. eapply joined_no_slash_false; [|exact J2]. auto.
  - rewrite (joined_cons a) in J2 by congruence. cbn [joined] in J2.
    exfalso. eapply joined_no_slash_false; [|symmetry; exact J2]. auto.
  - rewrite (joined_cons a) in J2 by congruence.
    rewrite (joined_cons b) in J2 by congruence.
    apply no_slash_split_unique in J2; auto. destruct J2 as [<- J2].
    f_equal. apply IH; auto; congruence.
Qed.

Lemma parse_spec s :
  s <> [] ->
  exists p segs, path_of_view s = Ret p /\
    is_abs p = starts_with_slash s /\
    segments_of (strip_leading_slash s) segs /\
    comps p = drop_trailing_empty segs.
Proof.
  destruct s as [|c rest]; [congruence|]. intros _.
  unfold path_of_view, starts_with_slash, strip_leading_slash.
  destruct (ascii_dec c slash).
  - destruct (split_loop_spec (S (length (c :: rest))) rest []) as (segs & Hs & ->); [cbn; lia|].
    exists (mkPath true (drop_trailing_empty segs)), segs. cbn. auto.
  - destruct (split_loop_spec (S (length (c :: rest))) (c :: rest) []) as (segs & Hs & ->); [cbn; lia|].
    exists (mkPath false (drop_trailing_empty segs)), segs. cbn. auto.
Qed.

Lemma str_loop_true cs : str_loop true cs = match cs with [] => [] | _ => slash :: joined cs end.
Proof.
  induction cs as [|c cs IH]; [reflexivity|]. cbn [str_loop]. rewrite IH.
  cbn. f_equal. destruct cs; [now rewrite app_nil_r|reflexivity].
Qed.

Lemma str_loop_false cs : str_loop false cs = joined cs.
Proof.
  destruct cs as [|c cs]; [reflexivity|]. cbn [str_loop]. rewrite str_loop_true.
  destruct cs; cbn; [now rewrite app_nil_r|reflexivity].
Qed.

Lemma ends_with_slash_snoc t : ends_with_slash (t ++ [slash]) = true.
Proof. unfold ends_with_slash. rewrite rev_app_distr. reflexivity. Qed.

Lemma ends_with_slash_app t u : u <> [] -> no_slash u -> ends_with_slash (t ++ u) = false.
Proof.
  intros Hu Hn. unfold ends_with_slash. rewrite rev_app_distr.
  destruct (rev u) as [|x r] eqn:E.
  - exfalso. apply Hu. rewrite <- (rev_involutive u), E. reflexivity.
  - cbn. destruct (ascii_dec x slash) as [->|]; auto.
    exfalso. apply Hn. apply in_rev. rewrite E. left. reflexivity.
Qed.

Lemma removelast_snoc {A} (l : list A) a : removelast (l ++ [a]) = l.
Proof. apply removelast_last. Qed.

Lemma print_parse s p :
  path_of_view s = Ret p ->
  str p = if ends_with_slash s then removelast s else s.
Proof.
  intros Hp. destruct s as [|c rest]; [discriminate|].
  destruct (parse_spec (c :: rest)) as (p' & segs & Hp' & Habs & Hseg & Hc); [congruence|].
  rewrite Hp in Hp'. injection Hp' as <-.
  destruct Hseg as (Hne & Hall & Hj).
  destruct (exists_last Hne) as (l & b & ->).
  apply Forall_app in Hall as [Hl Hb]. inversion Hb; subst.
  assert (Hs : c :: rest = (if starts_with_slash (c :: rest) then [slash] else [])
                            ++ joined (l ++ [b])).
  { rewrite Hj. unfold starts_with_slash, strip_leading_slash.
    destruct (ascii_dec c slash); subst; reflexivity. }
  unfold str. rewrite Habs, Hc.
  remember (starts_with_slash (c :: rest)) as sw eqn:Esw.
  destruct b as [|b0 b].
  - rewrite drop_trailing_empty_snoc_nil.
    destruct l as [|x l].
    + cbn [app joined] in Hs.
      destruct sw; cbn [app] in Hs; [|discriminate].
      rewrite Hs. reflexivity.
    + rewrite joined_snoc in Hs by congruence.
      rewrite Hs. rewrite app_assoc.
      rewrite ends_with_slash_snoc, removelast_snoc.
      destruct sw; [rewrite str_loop_true|rewrite str_loop_false]; reflexivity.
  - rewrite drop_trailing_empty_snoc by congruence.
    assert (Hend : ends_with_slash (c :: rest) = false).
    { rewrite Hs. destruct l as [|x l].
      - cbn [app joined]. apply ends_with_slash_app; [congruence|auto].
      - rewrite joined_snoc by congruence.
        change (slash :: b0 :: b) with ([slash] ++ (b0 :: b)).
        rewrite !app_assoc. apply ends_with_slash_app; [congruence|auto]. }
    rewrite Hend.
    rewrite Hs. destruct sw.
    + rewrite str_loop_true. destruct (l ++ [b0 :: b]) eqn:E; [|reflexivity].
      destruct l; discriminate.
    + rewrite str_loop_false. reflexivity.
Qed.

Lemma joined_first_nonslash cs c0 c cs' :
  cs = (c0 :: c) :: cs' -> joined cs = c0 :: (match cs' with [] => c | _ => c ++ slash :: joined cs' end).
Proof. intros ->. destruct cs'; reflexivity. Qed.

Lemma drop_trailing_empty_id cs : Forall (fun c => c <> []) cs -> drop_trailing_empty cs = cs.
Proof.
  intros H. destruct cs as [|c cs]; [reflexivity|].
  destruct (exists_last (l := c :: cs)) as (l & b & E); [congruence|].
  rewrite E in *. apply Forall_app in H as [_ H]. inversion H; subst.
  now apply drop_trailing_empty_snoc.
Qed.

Lemma reparse p :
  Forall (fun c => c <> [] /\ no_slash c) (comps p) ->
  (is_abs p = true -> comps p <> []) ->
  path_of_cstr (str p) = Ret p.
Proof.
  intros Hall Habs. destruct p as [abs cs]; cbn [is_abs comps] in Hall, Habs.
  assert (H1 : Forall (fun c => c <> []) cs) by (eapply Forall_impl; [|exact Hall]; cbn; tauto).
  assert (H2 : Forall no_slash cs) by (eapply Forall_impl; [|exact Hall]; cbn; tauto).
  destruct cs as [|[|c0 c] cs'].
  - destruct abs; [exfalso; now apply Habs|]. reflexivity.
  - inversion H1; congruence.
  - set (cs := (c0 :: c) :: cs') in *.
    assert (Hseg : segments_of (joined cs) cs) by (repeat split; auto; subst cs; congruence).
    assert (Hc0 : c0 <> slash).
    { pose proof (Forall_inv H2) as Hn. intros ->. apply Hn. left. reflexivity. }
    assert (Hv : path_of_view (str (mkPath abs cs)) = Ret (mkPath abs cs)).
    { destruct abs.
      - assert (Es : str (mkPath true cs) = slash :: joined cs)
          by (unfold str; cbn [is_abs comps]; rewrite str_loop_true; reflexivity).
        rewrite Es. destruct (parse_spec (slash :: joined cs)) as (p & segs & Hp & Ha & Hsg & Hcs); [congruence|].
        rewrite Hp. f_equal. destruct p as [a' cs'']; cbn in Ha, Hcs, Hsg.
        subst a' cs''. f_equal.
        rewrite (segments_of_unique _ _ _ Hsg Hseg). now apply drop_trailing_empty_id.
      - assert (Es : str (mkPath false cs) = joined cs)
          by (unfold str; cbn [is_abs comps]; apply str_loop_false).
        rewrite Es. destruct (parse_spec (joined cs)) as (p & segs & Hp & Ha & Hsg & Hcs).
        { unfold cs. rewrite (joined_first_nonslash _ c0 c cs' eq_refl). congruence. }
        rewrite Hp. f_equal. destruct p as [a' cs'']; cbn [is_abs comps] in Ha, Hcs. subst a' cs''.
        assert (Hst : starts_with_slash (joined cs) = false /\ strip_leading_slash (joined cs) = joined cs).
        { unfold cs. rewrite (joined_first_nonslash _ c0 c cs' eq_refl). cbn.
          destruct (ascii_dec c0 slash); [congruence|auto]. }
        destruct Hst as [-> Hst]. rewrite Hst in Hsg.
        f_equal. rewrite (segments_of_unique _ _ _ Hsg Hseg). now apply drop_trailing_empty_id. }
    unfold path_of_cstr. destruct (str (mkPath abs cs)) eqn:E; [|exact Hv].
    discriminate Hv.
Qed.

(** ** Canonicalisation *)

Lemma follow_app {Node} child parent (n : Node) l1 l2 :
  follow child parent n (l1 ++ l2) = follow child parent (follow child parent n l1) l2.
Proof. revert n. induction l1; cbn; auto. Qed.

Lemma ups_app l1 l2 : ups (l1 ++ l2) = ups l1 + ups l2.
Proof. induction l1; cbn; lia. Qed.
Lemma names_app l1 l2 : names (l1 ++ l2) = names l1 + names l2.
Proof. induction l1; cbn; lia. Qed.

Lemma dotdot_not_nil : dotdot <> [].
Proof. discriminate. Qed.
#[global] Hint Resolve dotdot_not_nil : core.
Local Opaque dotdot.

Lemma remove_dotdot_loop_true left right r :
  Forall (fun c => c <> []) right -> clean left ->
  remove_dotdot_loop left right = (true, r) ->
  clean r /\
  (forall Node child parent (n : Node),
      (forall m c, c <> [] -> c <> dotdot -> parent (child m c) = m) ->
      follow child parent n (rev left ++ right) = follow child parent n r) /\
  (forall pre post, right = pre ++ post -> ups pre <= names pre + length left).
Proof.
  revert left. induction right as [|c right IH]; intros left Hne Hcl E; cbn in E.
  - injection E as <-. split; [apply Forall_rev; auto|]. split.
    + intros. now rewrite app_nil_r.
    + intros pre post Hp. symmetry in Hp. apply app_eq_nil in Hp as [-> ->]. cbn. lia.
  - inversion Hne; subst.
    destruct (text_eqb_spec c dotdot) as [->|Hc]; cbn in E.
    + destruct left as [|x left]; [discriminate|].
      inversion Hcl as [|? ? [Hx1 Hx2] Hcl']; subst.
      destruct (IH left) as (Hr & Hf & Hp); auto.
      split; [auto|]. split.
      * intros Node child parent n Hpar. rewrite <- Hf by auto.
        cbn [rev]. rewrite !follow_app. cbn [follow].
        destruct (text_eq_dec x []); [congruence|].
        destruct (text_eq_dec x dotdot); [congruence|].
        destruct (text_eq_dec dotdot []) as [D|]; [now apply dotdot_not_nil in D|].
        destruct (text_eq_dec dotdot dotdot); [|congruence].
        now rewrite Hpar.
      * intros pre post Heq. destruct pre as [|y pre]; [cbn; lia|].
        injection Heq as <- Heq. specialize (Hp _ _ Heq). cbn [ups names length].
        destruct (text_eq_dec dotdot dotdot); [|congruence]. lia.
    + destruct (IH (c :: left)) as (Hr & Hf & Hp); auto.
      { constructor; auto. }
      split; [auto|]. split.
      * intros Node child parent n Hpar. rewrite <- Hf by auto.
        cbn [rev]. rewrite <- app_assoc. reflexivity.
      * intros pre post Heq. destruct pre as [|y pre]; [cbn; lia|].
        injection Heq as <- Heq. specialize (Hp _ _ Heq). cbn [ups names length] in *.
        destruct (text_eq_dec c dotdot); [congruence|].
        destruct (text_eq_dec c []); [congruence|]. lia.
Qed.

Lemma remove_dotdot_loop_false left right r :
  Forall (fun c => c <> []) right ->
  remove_dotdot_loop left right = (false, r) ->
  (exists pre post, right = pre ++ post /\ names pre + length left < ups pre) /\
  exists post, r = dotdot :: post.
Proof.
  revert left. induction right as [|c right IH]; intros left Hne E; cbn in E; [discriminate|].
  inversion Hne; subst.
  destruct (text_eqb_spec c dotdot) as [->|Hc]; cbn in E.
  - destruct left as [|x left].
    + injection E as <-. split; eauto. exists [dotdot], right. split; auto.
    + destruct (IH left) as ((pre & post & -> & Hlt) & Hr); auto. split; auto.
      exists (dotdot :: pre), post. split; auto. cbn [ups names length].
      destruct (text_eq_dec dotdot dotdot); [|congruence]. lia.
  - destruct (IH (c :: left)) as ((pre & post & -> & Hlt) & Hr); auto. split; auto.
    exists (c :: pre), post. split; auto. cbn [ups names length] in *.
    destruct (text_eq_dec c dotdot); [congruence|].
    destruct (text_eq_dec c []); [congruence|]. lia.
Qed.

Definition nonempty_comps (l : list text) : list text :=
  filter (fun c => negb (Nat.eqb (length c) 0)) l.

Lemma nonempty_comps_cons c l :
  nonempty_comps (c :: l) = match c with [] => nonempty_comps l | _ => c :: nonempty_comps l end.
Proof. destruct c; reflexivity. Qed.

Lemma nonempty_comps_Forall l : Forall (fun c => c <> []) (nonempty_comps l).
Proof.
  apply Forall_forall. intros x Hx. apply filter_In in Hx as [_ Hx].
  destruct x; [discriminate|congruence].
Qed.

Lemma ups_nonempty l : ups (nonempty_comps l) = ups l.
Proof.
  induction l as [|c l IH]; [reflexivity|]. rewrite nonempty_comps_cons.
  destruct c as [|a c]; cbn [ups].
  - destruct (text_eq_dec [] dotdot) as [D|]; [symmetry in D; now apply dotdot_not_nil in D|]. exact IH.
  - now rewrite IH.
Qed.

Lemma names_nonempty l : names (nonempty_comps l) = names l.
Proof.
  induction l as [|c l IH]; [reflexivity|]. rewrite nonempty_comps_cons.
  destruct c as [|a c]; cbn [names].
  - destruct (text_eq_dec [] dotdot) as [D|]; [symmetry in D; now apply dotdot_not_nil in D|]. exact IH.
  - now rewrite IH.
Qed.

Lemma follow_nonempty {Node} child parent (n : Node) l :
  follow child parent n (nonempty_comps l) = follow child parent n l.
Proof.
  revert n. induction l as [|c l IH]; intros n; [reflexivity|]. rewrite nonempty_comps_cons.
  destruct c as [|a c]; cbn [follow].
  - apply IH.
  - apply IH.
Qed.

Lemma prefix_nonempty l pre post :
  nonempty_comps l = pre ++ post ->
  exists pre' post', l = pre' ++ post' /\ nonempty_comps pre' = pre.
Proof.
  revert pre. induction l as [|c l IH]; intros pre E.
  - symmetry in E. apply app_eq_nil in E as [-> ->]. exists [], []. auto.
  - rewrite nonempty_comps_cons in E. destruct pre as [|p pre].
    + exists [], (c :: l). auto.
    + destruct c as [|a c].
      * destruct (IH _ E) as (pre' & post' & -> & Hp). exists ([] :: pre'), post'. auto.
      * cbn [app] in E. injection E as <- E. destruct (IH _ E) as (pre' & post' & -> & Hp).
        exists ((a :: c) :: pre'), post'. split; auto. rewrite nonempty_comps_cons. now rewrite Hp.
Qed.

Lemma nonempty_comps_app l1 l2 : nonempty_comps (l1 ++ l2) = nonempty_comps l1 ++ nonempty_comps l2.
Proof. unfold nonempty_comps. induction l1; cbn; auto. destruct (negb _); cbn; congruence. Qed.

Lemma canonicalise_unfold p :
  canonicalise p =
  (fst (remove_dotdot_loop [] (nonempty_comps (comps p))),
   mkPath (is_abs p) (snd (remove_dotdot_loop [] (nonempty_comps (comps p))))).
Proof. reflexivity. Qed.

Lemma canonicalise_fails_iff p :
  fst (canonicalise p) = false <-> climbs_above_start (comps p).
Proof.
  rewrite canonicalise_unfold. cbn [fst].
  destruct (remove_dotdot_loop [] (nonempty_comps (comps p))) as [[|] r] eqn:E; cbn [fst].
  - split; [discriminate|]. intros (pre & post & Heq & Hlt). exfalso.
    apply remove_dotdot_loop_true in E as (_ & _ & H); [|apply nonempty_comps_Forall|constructor].
    rewrite Heq, nonempty_comps_app in H. specialize (H _ _ eq_refl).
    rewrite ups_nonempty, names_nonempty in H. cbn in H. lia.
  - split; [intros _|reflexivity].
    apply remove_dotdot_loop_false in E as ((pre & post & Heq & Hlt) & _); [|apply nonempty_comps_Forall].
    apply prefix_nonempty in Heq as (pre' & post' & Heq & <-).
    exists pre', post'. split; auto. rewrite ups_nonempty, names_nonempty in Hlt. cbn in Hlt. lia.
Qed.

Lemma canonicalise_result p q :
  canonicalise p = (true, q) ->
  is_abs q = is_abs p /\ clean (comps q) /\
  forall Node child parent (n : Node),
    (forall m c, c <> [] -> c <> dotdot -> parent (child m c) = m) ->
    follow child parent n (comps p) = follow child parent n (comps q).
Proof.
  rewrite canonicalise_unfold.
  destruct (remove_dotdot_loop [] (nonempty_comps (comps p))) as [b r] eqn:E; cbn [fst snd].
  intros H. injection H as -> <-. cbn [is_abs comps].
  apply remove_dotdot_loop_true in E as (Hc & Hf & _); [|apply nonempty_comps_Forall|constructor].
  split; [reflexivity|]. split; [exact Hc|].
  intros Node child parent n Hp. rewrite <- Hf by auto. cbn [rev app].
  now rewrite follow_nonempty.
Qed.

Lemma follow_stack_clean l n :
  clean l ->
  follow (fun n c => c :: n) (@tl text) n l = rev l ++ n.
Proof.
  revert n. induction l as [|c l IH]; intros n H; [reflexivity|].
  inversion H as [|? ? [H1 H2] H3]; subst. cbn [follow].
  destruct (text_eq_dec c []); [congruence|].
  destruct (text_eq_dec c dotdot); [congruence|].
  rewrite IH by auto. cbn [rev]. now rewrite <- app_assoc.
Qed.

Lemma canonicalise_normal_form p q :
  canonicalise p = (true, q) ->
  comps q = rev (follow (fun n c => c :: n) (@tl text) [] (comps p)).
Proof.
  intros H. apply canonicalise_result in H as (_ & Hc & Hf).
  rewrite (Hf _ (fun n c => c :: n) (@tl text) []) by reflexivity.
  rewrite follow_stack_clean by auto. now rewrite app_nil_r, rev_involutive.
Qed.

Lemma canonicalise_clean p : clean (comps p) -> canonicalise p = (true, p).
Proof.
  intros H. rewrite canonicalise_unfold.
  assert (E : nonempty_comps (comps p) = comps p).
  { induction H as [|c l [H1 H2] H IH]; [reflexivity|]. cbn.
    destruct c; [congruence|]. cbn. unfold nonempty_comps in IH. now rewrite IH. }
  rewrite E.
  assert (G : forall right left, clean right -> remove_dotdot_loop left right = (true, rev left ++ right)).
  { induction right as [|c right IH]; intros left Hc; cbn; [now rewrite app_nil_r|].
    inversion Hc as [|? ? [H1 H2] H3]; subst.
    destruct (text_eqb_spec c dotdot); [congruence|]. cbn.
    rewrite IH by auto. cbn. now rewrite <- app_assoc. }
  rewrite G by auto. destruct p. reflexivity.
Qed.

Lemma canonicalise_idempotent p q : canonicalise p = (true, q) -> canonicalise q = (true, q).
Proof. intros H. apply canonicalise_clean. now apply canonicalise_result in H. Qed.

Lemma canonicalise_failure_shape p q :
  canonicalise p = (false, q) -> is_abs q = is_abs p /\ exists rest, comps q = dotdot :: rest.
Proof.
  rewrite canonicalise_unfold.
  destruct (remove_dotdot_loop [] (nonempty_comps (comps p))) as [b r] eqn:E; cbn [fst snd].
  intros H. injection H as -> <-. split; [reflexivity|].
  apply remove_dotdot_loop_false in E as (_ & post & ->); [|apply nonempty_comps_Forall].
  exists post. reflexivity.
Qed.

(** Components are never invented: they are components of the input. *)
Lemma canonicalise_incl p b q : canonicalise p = (b, q) -> incl (comps q) (comps p).
Proof.
  rewrite canonicalise_unfold.
  assert (G : forall right left, incl (snd (remove_dotdot_loop left right)) (left ++ right)).
  { induction right as [|c right IH]; intros left; cbn.
    - rewrite app_nil_r. intros x Hx. now apply in_rev.
    - destruct (text_eqb_spec c dotdot); cbn.
      + destruct left as [|x left]; [apply incl_refl|].
        intros y Hy. apply IH in Hy. right. apply in_app_iff in Hy. apply in_app_iff. cbn. tauto.
      + intros y Hy. apply IH in Hy. cbn in Hy. apply in_app_iff. cbn.
        destruct Hy as [->|Hy]; [tauto|]. apply in_app_iff in Hy. tauto. }
  intros H. injection H as _ <-. cbn [comps].
  intros x Hx. apply G in Hx. cbn in Hx. apply filter_In in Hx. tauto.
Qed.

Lemma parse_no_slash s p : path_of_cstr s = Ret p -> Forall no_slash (comps p).
Proof.
  destruct s as [|c r].
  - intros H. injection H as <-. constructor.
  - intros H. destruct (parse_spec (c :: r)) as (p' & segs & Hp & _ & (_ & Hf & _) & Hc); [congruence|].
    unfold path_of_cstr in H. rewrite H in Hp. injection Hp as <-. rewrite Hc.
    apply Forall_forall. intros x Hx. rewrite Forall_forall in Hf. apply Hf.
    unfold drop_trailing_empty in Hx. destruct (rev segs) as [|[|] l] eqn:E; auto.
    apply in_rev in Hx. apply in_rev. rewrite E. now right.
Qed.
