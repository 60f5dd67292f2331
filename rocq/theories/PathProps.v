(** Theorems about sandbox::Path (properties C01, C02, C03). *)
From Coq Require Import String Ascii List ZArith Bool.
From Verif Require Import Base PathModel PathSpec PathProof.
Import ListNotations.

(** C01.  Every non-empty text parses; the path is absolute iff the text
    starts with '/', and the components are the maximal '/'-free segments of
    what follows, one trailing empty segment being dropped. *)
Theorem path_parse_segments :
  forall s, s <> [] ->
  exists p segs, path_of_view s = Ret p /\
    is_abs p = starts_with_slash s /\
    segments_of (strip_leading_slash s) segs /\
    comps p = drop_trailing_empty segs.
Proof. exact parse_spec. Qed.
Print Assumptions path_parse_segments.

(** The decomposition named above is unique, so the statement determines the
    components. *)
Theorem path_segments_unique :
  forall t s1 s2, segments_of t s1 -> segments_of t s2 -> s1 = s2.
Proof. exact segments_of_unique. Qed.
Print Assumptions path_segments_unique.

(** C01.  Printing gives the text back, minus at most one trailing '/'. *)
Theorem path_print_of_parse :
  forall s p, path_of_view s = Ret p ->
  str p = if ends_with_slash s then removelast s else s.
Proof. exact print_parse. Qed.
Print Assumptions path_print_of_parse.

(** C01.  Re-parsing a printed path gives the path back. *)
Theorem path_parse_of_print :
  forall p, Forall (fun c => c <> [] /\ no_slash c) (comps p) ->
  (is_abs p = true -> comps p <> []) ->
  path_of_cstr (str p) = Ret p.
Proof. exact reparse. Qed.
Print Assumptions path_parse_of_print.

(** C01.  Components of a parsed path never contain '/'. *)
Theorem path_components_no_slash :
  forall s p, path_of_cstr s = Ret p -> Forall no_slash (comps p).
Proof. exact parse_no_slash. Qed.
Print Assumptions path_components_no_slash.

Example path_parse_ex :
  path_of_view (tx "//fo\/o//bar/") =
  Ret (mkPath true [[]; tx "fo\"; tx "o"; []; tx "bar"]).
Proof. reflexivity. Qed.

Example path_print_ex :
  exists p, path_of_view (tx "//fo\/o//bar/") = Ret p /\ str p = tx "//fo\/o//bar".
Proof. eexists. split; reflexivity. Qed.

Example path_parse_of_print_ex :
  let p := mkPath true [tx "usr"; tx "lib"] in
  Forall (fun c => c <> [] /\ no_slash c) (comps p) /\
  (is_abs p = true -> comps p <> []) /\ path_of_cstr (str p) = Ret p.
Proof.
  cbn. split; [|split; [discriminate|reflexivity]].
  repeat constructor; try discriminate; intros H; cbn in H; intuition discriminate.
Qed.

(** The root directory does not survive printing: "/" prints as "". *)
Theorem path_root_prints_empty :
  exists p, path_of_view (tx "/") = Ret p /\ is_abs p = true /\ str p = [].
Proof. eexists. repeat split. Qed.
Print Assumptions path_root_prints_empty.

(** An empty view is undefined behaviour in the constructor. *)
Theorem path_empty_view_ub : path_of_view [] = UB.
Proof. reflexivity. Qed.
Print Assumptions path_empty_view_ub.

(** C02.  Canonicalisation fails exactly when some prefix has more ".." than
    names. *)
Theorem canonicalise_fails_iff_climbs :
  forall p, fst (canonicalise p) = false <-> climbs_above_start (comps p).
Proof. exact canonicalise_fails_iff. Qed.
Print Assumptions canonicalise_fails_iff_climbs.

(** C02.  On success the result has neither "" nor ".." components, keeps the
    absolute flag and leads, in every directory structure in which ".." undoes
    a descent, to the node the original path leads to. *)
Theorem canonicalise_success :
  forall p q, canonicalise p = (true, q) ->
  is_abs q = is_abs p /\ clean (comps q) /\
  forall Node child parent (n : Node),
    (forall m c, c <> [] -> c <> dotdot -> parent (child m c) = m) ->
    follow child parent n (comps p) = follow child parent n (comps q).
Proof. exact canonicalise_result. Qed.
Print Assumptions canonicalise_success.

(** C02.  The result is the stack normal form of the input. *)
Theorem canonicalise_stack_form :
  forall p q, canonicalise p = (true, q) ->
  comps q = rev (follow (fun n c => c :: n) (@tl text) [] (comps p)).
Proof. exact canonicalise_normal_form. Qed.
Print Assumptions canonicalise_stack_form.

(** C02.  A second canonicalisation changes nothing. *)
Theorem canonicalise_idem :
  forall p q, canonicalise p = (true, q) -> canonicalise q = (true, q).
Proof. exact canonicalise_idempotent. Qed.
Print Assumptions canonicalise_idem.

(** C02.  A failed canonicalisation leaves a path that starts with "..". *)
Theorem canonicalise_failure :
  forall p q, canonicalise p = (false, q) ->
  is_abs q = is_abs p /\ exists rest, comps q = dotdot :: rest.
Proof. exact canonicalise_failure_shape. Qed.
Print Assumptions canonicalise_failure.

(** C02.  No component is invented, whether canonicalisation succeeds or not. *)
Theorem canonicalise_no_new_components :
  forall p b q, canonicalise p = (b, q) -> incl (comps q) (comps p).
Proof. exact canonicalise_incl. Qed.
Print Assumptions canonicalise_no_new_components.

Example canonicalise_ok_ex :
  canonicalise (mkPath true [tx "a"; []; tx "b"; dotdot; tx "c"; tx "d"; dotdot; dotdot; tx "e"])
  = (true, mkPath true [tx "a"; tx "e"]).
Proof. reflexivity. Qed.

Example canonicalise_fail_ex :
  canonicalise (mkPath true [tx "1"; tx "2"; dotdot; dotdot; dotdot; tx "4"])
  = (false, mkPath true [dotdot; tx "4"]) /\
  climbs_above_start [tx "1"; tx "2"; dotdot; dotdot; dotdot; tx "4"].
Proof.
  split; [reflexivity|].
  exists [tx "1"; tx "2"; dotdot; dotdot; dotdot], [tx "4"]. split; [reflexivity|].
  vm_compute. repeat constructor.
Qed.

Example follow_hypothesis_ex :
  forall (m : list text) (c : text), c <> [] -> c <> dotdot -> tl (c :: m) = m.
Proof. reflexivity. Qed.

(** Limit of C02: "." is kept and treated as a name, so under the POSIX
    reading ("." stays in place) canonicalisation can change the meaning of a
    path: "a/./../b" becomes "a/b" instead of "b". *)
Theorem canonicalise_dot_refuted :
  exists p q, canonicalise p = (true, q) /\
    follow_posix (fun n c => c :: n) (@tl text) [] (comps p) <>
    follow_posix (fun n c => c :: n) (@tl text) [] (comps q).
Proof.
  exists (mkPath true [tx "a"; tx "."; dotdot; tx "b"]), (mkPath true [tx "a"; tx "b"]).
  split; [reflexivity|]. vm_compute. discriminate.
Qed.
Print Assumptions canonicalise_dot_refuted.

(** C03.  A relative path is anchored at the base, and stays absolute and
    ".."-free through a successful canonicalisation. *)
Theorem make_absolute_anchors :
  forall debug p base, is_abs p = false ->
  exists q, make_absolute debug p base = Ret q /\ is_abs q = true /\
    comps q = comps base ++ comps p /\
    forall r, canonicalise q = (true, r) -> is_abs r = true /\ clean (comps r).
Proof.
  intros debug p base Hp. unfold make_absolute. rewrite Hp, andb_false_r.
  eexists. split; [reflexivity|]. split; [reflexivity|]. split; [reflexivity|].
  intros r Hr. apply canonicalise_result in Hr. cbn in Hr. tauto.
Qed.
Print Assumptions make_absolute_anchors.

(** C03.  Debug builds abort on an already absolute path; release builds
    concatenate silently. *)
Theorem make_absolute_on_absolute :
  forall p base, is_abs p = true ->
  make_absolute true p base = Aborts /\
  make_absolute false p base = Ret (mkPath true (comps base ++ comps p)).
Proof. intros p base Hp. unfold make_absolute. now rewrite Hp. Qed.
Print Assumptions make_absolute_on_absolute.

Example make_absolute_ex :
  make_absolute true (mkPath false [dotdot; tx "x"]) (mkPath true [tx "home"; tx "u"])
  = Ret (mkPath true [tx "home"; tx "u"; dotdot; tx "x"]) /\
  canonicalise (mkPath true [tx "home"; tx "u"; dotdot; tx "x"])
  = (true, mkPath true [tx "home"; tx "x"]).
Proof. split; reflexivity. Qed.

(** C03.  With the default base, the printed path is the working directory, a
    '/', and the text of the relative path (less a trailing '/'). *)
Lemma str_loop_app a b : str_loop true (a ++ b) = str_loop true a ++ str_loop true b.
Proof. induction a; cbn; [reflexivity|]. now rewrite IHa, <- app_assoc. Qed.
Theorem make_absolute_default_text :
  forall debug dir t p, starts_with_slash dir = true -> starts_with_slash t = false -> t <> [] ->
  path_of_cstr t = Ret p ->
  exists q, make_absolute_default debug (Some dir) p = Ret q /\ is_abs q = true /\
    str q = (if ends_with_slash dir then removelast dir else dir) ++
            slash :: (if ends_with_slash t then removelast t else t).
Proof.
  intros debug dir t p HD HT NT HP.
  assert (NV : dir <> []) by (intros ->; discriminate).
  destruct (path_parse_segments dir NV) as (b & sb & EB & AB & _ & _).
  destruct (path_parse_segments t NT) as (p' & sp & EP & AP & SP & CP).
  assert (X : path_of_view t = Ret p) by (destruct t; [congruence|exact HP]).
  rewrite X in EP. injection EP as <-. rewrite HD in AB. rewrite HT in AP.
  unfold make_absolute_default, path_getcwd. cbn [obind].
  replace (path_of_cstr dir) with (Ret b) by (destruct dir; [congruence|symmetry; exact EB]). cbn [obind].
  unfold make_absolute. rewrite AP, andb_false_r. eexists. split; [reflexivity|]. split; [reflexivity|].
  unfold str. cbn [is_abs comps]. rewrite str_loop_app.
  pose proof (path_print_of_parse _ _ EB) as PB. unfold str in PB. rewrite AB in PB.
  pose proof (path_print_of_parse _ _ X) as PP. unfold str in PP. rewrite AP in PP.
  rewrite PB. f_equal. rewrite <- PP.
  destruct (comps p) as [|c l] eqn:C; [exfalso|reflexivity].
  destruct SP as (_ & NS & J). replace (strip_leading_slash t) with t in J
    by (destruct t as [|x r]; [congruence|]; cbn in *; destruct (ascii_dec x slash); [discriminate|reflexivity]).
  unfold drop_trailing_empty in CP. destruct (rev sp) as [|x r] eqn:R.
  - apply NT. rewrite <- J. apply (f_equal (@rev _)) in R. rewrite rev_involutive in R. now subst.
  - apply (f_equal (@rev _)) in R. rewrite rev_involutive in R. cbn in R. destruct x.
    + assert (r = []) by (destruct r; [reflexivity|]; cbn in CP; symmetry in CP; apply app_eq_nil in CP; destruct CP; discriminate).
      subst. cbn in NT. congruence.
    + rewrite <- CP in R. destruct (rev r); discriminate.
Qed.
Print Assumptions make_absolute_default_text.
Example make_absolute_default_ex :
  exists p q, path_of_cstr (tx "a/b") = Ret p /\ make_absolute_default true (Some (tx "/home/u")) p = Ret q /\
    str q = tx "/home/u/a/b".
Proof. eexists _, _. split; [reflexivity|]. split; reflexivity. Qed.

(** C03, limits.  A working directory the kernel cannot name is undefined
    behaviour; one it names without a leading '/' ("(unreachable)/x" on Linux) is
    taken for a path below the root. *)
Theorem getcwd_failure_ub : forall debug p, make_absolute_default debug None p = UB.
Proof. reflexivity. Qed.
Print Assumptions getcwd_failure_ub.
Theorem make_absolute_default_rooted :
  forall debug dir p q, is_abs p = false -> make_absolute_default debug (Some dir) p = Ret q ->
  is_abs q = true /\ exists b, path_of_cstr dir = Ret b /\ comps q = comps b ++ comps p.
Proof.
  intros debug dir p q A H. unfold make_absolute_default, path_getcwd in H.
  destruct (path_of_cstr dir) as [b| | | |]; try discriminate. cbn [obind] in H. unfold make_absolute in H.
  rewrite A, andb_false_r in H. injection H as <-. split; [reflexivity|]. exists b. split; reflexivity.
Qed.
Print Assumptions make_absolute_default_rooted.
Example unreachable_ex :
  exists p q, path_of_cstr (tx "a") = Ret p /\ make_absolute_default true (Some (tx "(unreachable)/x")) p = Ret q /\
    str q = tx "/(unreachable)/x/a".
Proof. eexists _, _. split; [reflexivity|]. split; reflexivity. Qed.
