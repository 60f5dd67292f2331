(** C67: what the run-time checks do when they fail. *)
From Coq Require Import String Ascii List Bool Lia.
From Verif Require Import Base CheckModel CheckSpec.
Import ListNotations.

(** ** Formatting *)

Lemma vformat_spell : forall ps args, Forall ordinary ps ->
  forall out, vformat (spell ps) args = Some out <-> filled ps args out.
Proof.
  induction ps as [|p ps IH]; intros args F out.
  - cbn. split; [intros [= <-]; constructor|inversion 1; reflexivity].
  - inversion F as [|? ? O F']; subst. unfold spell. cbn [map concat]. fold (spell ps).
    destruct p as [c| | |].
    + cbn [spell1 app]. destruct O as [O1 O2]. cbn [vformat].
      destruct (ascii_dec c "{"); [contradiction|]. destruct (ascii_dec c "}"); [contradiction|].
      split.
      * destruct (vformat (spell ps) args) eqn:E; [|discriminate]. intros [= <-].
        constructor. apply IH; auto.
      * inversion 1; subst. match goal with X : filled ps _ _ |- _ => apply (IH _ F') in X; rewrite X end. reflexivity.
    + cbn [spell1 app vformat ascii_dec]. split.
      * cbn. destruct (vformat (spell ps) args) eqn:E; [|discriminate]. intros [= <-].
        constructor. apply IH; auto.
      * inversion 1; subst. cbn. match goal with X : filled ps _ _ |- _ => apply (IH _ F') in X; rewrite X end. reflexivity.
    + cbn [spell1 app vformat ascii_dec]. split.
      * cbn. destruct (vformat (spell ps) args) eqn:E; [|discriminate]. intros [= <-].
        constructor. apply IH; auto.
      * inversion 1; subst. cbn. match goal with X : filled ps _ _ |- _ => apply (IH _ F') in X; rewrite X end. reflexivity.
    + cbn [spell1 app vformat]. cbn. destruct args as [|a args].
      * split; [discriminate|inversion 1].
      * split.
        -- destruct (vformat (spell ps) args) eqn:E; [|discriminate]. intros [= <-].
           constructor. apply IH; auto.
        -- inversion 1; subst. match goal with X : filled ps _ _ |- _ => apply (IH _ F') in X; rewrite X end. reflexivity.
Qed.

Lemma filled_enough : forall ps args, holes ps <= length args <-> exists out, filled ps args out.
Proof.
  induction ps as [|p ps IH]; intros args.
  - split; [exists []; constructor|cbn; lia].
  - destruct p as [c| | |]; cbn [holes filter length].
    1-3: split;
      [intros H; destruct (proj1 (IH args) H) as [o O]; eexists; constructor; exact O
      |intros [o O]; inversion O; subst; apply IH; eauto].
    destruct args as [|a args]; split.
    + cbn. lia.
    + intros [o O]. inversion O.
    + intros H. destruct (proj1 (IH args)) as [o O]; [unfold holes in *; cbn in *; lia|].
      eexists; constructor; exact O.
    + intros [o O]. inversion O; subst. assert (holes ps <= length args) by (apply IH; eauto).
      unfold holes in *. cbn. lia.
Qed.

Lemma fail_message_spells msg args sl out :
  vformat msg args = Some out ->
  invariant_fail msg args sl = Stopped (report_line (file_name sl) (line_number sl) (function_name sl) out).
Proof.
  intros E. unfold invariant_fail. rewrite E. cbn. unfold report_line. cbn. reflexivity.
Qed.

Lemma stringise_listed : forall ts, listed ts (stringise ts).
Proof.
  induction ts as [|t [|u ts] IH]; [constructor|constructor|].
  change (stringise (t :: u :: ts)) with (t ++ tx ", " ++ stringise (u :: ts)). constructor. exact IH.
Qed.

(** ** The claims *)

(** A check that holds, or that is not compiled in, does nothing. *)
Theorem check_passes : forall e release cond msg args sl,
  cond = true \/ (e = DebugOnly /\ release = true) \/ (e = ReleaseOnly /\ release = false) ->
  sandbox_invariant e release cond msg args sl = Passed.
Proof.
  intros e release cond msg args sl [->|[[-> ->]|[-> ->]]]; unfold sandbox_invariant, invariant; cbn;
    [destruct (is_enabled e release)|..]; reflexivity.
Qed.

(** A check that is compiled in and fails is never passed, whatever its message
    and its arguments: nothing after it in its function runs. *)
Theorem failed_check_not_passed : forall e release msg args sl,
  e = DebugAndRelease \/ (e = DebugOnly /\ release = false) \/ (e = ReleaseOnly /\ release = true) ->
  sandbox_invariant e release false msg args sl <> Passed.
Proof.
  intros e release msg args sl H. unfold sandbox_invariant, invariant.
  replace (is_enabled e release) with true by (destruct H as [->|[[-> ->]|[-> ->]]]; reflexivity).
  unfold invariant_fail. destruct (vformat _ _); [|discriminate].
  destruct (vformat _ _); discriminate.
Qed.

(** If the message has at most one hole, the process stops, and prints the place
    of the check and the message with the arguments' source text in the hole. *)
Theorem failed_check_stops : forall e release ps args file line fn,
  e = DebugAndRelease \/ (e = DebugOnly /\ release = false) \/ (e = ReleaseOnly /\ release = true) ->
  Forall ordinary ps -> holes ps <= 1 ->
  exists names msg,
    listed (map source args) names /\ filled ps [names] msg /\
    sandbox_invariant e release false (spell ps) args (Place file line fn)
    = Stopped (report_line file line fn msg).
Proof.
  intros e release ps args file line fn H F N.
  destruct (proj1 (filled_enough ps [stringise (map source args)])) as [msg M]; [exact N|].
  exists (stringise (map source args)), msg. split; [apply stringise_listed|].
  split; [exact M|]. unfold sandbox_invariant, invariant.
  replace (is_enabled e release) with true by (destruct H as [->|[[-> ->]|[-> ->]]]; reflexivity).
  apply (fail_message_spells _ _ (Place file line fn)). apply vformat_spell; auto.
Qed.

(** If it has more than one hole, the process does not stop: an exception leaves
    the function, however many arguments were given. *)
Theorem failed_check_with_two_holes_raises : forall e release ps args sl,
  e = DebugAndRelease \/ (e = DebugOnly /\ release = false) \/ (e = ReleaseOnly /\ release = true) ->
  Forall ordinary ps -> 2 <= holes ps ->
  sandbox_invariant e release false (spell ps) args sl = Raised.
Proof.
  intros e release ps args sl H F N. unfold sandbox_invariant, invariant.
  replace (is_enabled e release) with true by (destruct H as [->|[[-> ->]|[-> ->]]]; reflexivity).
  unfold invariant_fail. destruct (vformat (spell ps) _) eqn:E; [|reflexivity].
  apply vformat_spell in E; [|assumption].
  assert (holes ps <= 1) by (apply (filled_enough ps [stringise (map source args)]); eauto). lia.
Qed.

(** The values of the arguments have no influence. *)
Theorem failed_check_ignores_values : forall e release cond msg args args' sl,
  map source args = map source args' ->
  sandbox_invariant e release cond msg args sl = sandbox_invariant e release cond msg args' sl.
Proof. intros e release cond msg args args' sl H. unfold sandbox_invariant. rewrite H. reflexivity. Qed.

(** ** The checks in the code *)

(** Read a message back into pieces. *)
Fixpoint parse (fuel : nat) (f : text) : list piece :=
  match fuel with
  | O => []
  | S n =>
    match f with
    | [] => []
    | c :: r =>
      if ascii_dec c "{" then
        match r with
        | d :: r' => (if ascii_dec d "}" then Hole else OpenBrace) :: parse n r'
        | [] => []
        end
      else if ascii_dec c "}" then CloseBrace :: parse n (tl r)
      else Char c :: parse n r
    end
  end.

Definition pieces_of (s : site) : list piece := parse (length (s_msg s)) (s_msg s).

Definition ordinaryb (p : piece) : bool :=
  match p with Char c => negb (Ascii.eqb c "{" || Ascii.eqb c "}") | _ => true end.
Lemma ordinaryb_ok ps : forallb ordinaryb ps = true -> Forall ordinary ps.
Proof.
  intros H. apply Forall_forall. intros p I. rewrite forallb_forall in H. specialize (H p I).
  destruct p as [c| | |]; cbn in *; auto. destruct (Ascii.eqb_spec c "{"), (Ascii.eqb_spec c "}"); try discriminate. auto.
Qed.
Lemma all_sites_pieces : Forall (fun s => spell (pieces_of s) = s_msg s /\ Forall ordinary (pieces_of s)) all_sites.
Proof.
  assert (E : forallb (fun s => text_eqb (spell (pieces_of s)) (s_msg s) && forallb ordinaryb (pieces_of s)) all_sites = true)
    by (vm_compute; reflexivity).
  apply Forall_forall. intros s I. rewrite forallb_forall in E. specialize (E s I). apply andb_prop in E as [E1 E2].
  split; [|apply ordinaryb_ok; auto]. destruct (text_eqb_spec (spell (pieces_of s)) (s_msg s)); [auto|discriminate].
Qed.

Definition place_eq_dec (a b : text * text) : {a = b} + {a <> b}.
Proof. decide equality; apply text_eq_dec. Defined.

(** In a release build exactly five checks of the code are left out. *)
Theorem checks_left_out_of_release : forall s, In s all_sites -> forall fn values,
  length values = length (s_args s) ->
  (check_at s true false fn values = Passed <-> In (s_file s, s_line s) debug_places) /\ check_at s false false fn values <> Passed.
Proof.
  intros s I fn values _.
  assert (E : s_enable s <> ReleaseOnly /\ (s_enable s = DebugOnly <-> In (s_file s, s_line s) debug_places)).
  { assert (Q : forallb (fun s => match s_enable s with ReleaseOnly => false | e =>
        Bool.eqb (match e with DebugOnly => true | _ => false end) (if in_dec place_eq_dec (s_file s, s_line s) debug_places then true else false) end) all_sites = true)
      by (vm_compute; reflexivity).
    rewrite forallb_forall in Q. specialize (Q s I). cbn beta in Q.
    destruct (s_enable s), (in_dec place_eq_dec (s_file s, s_line s) debug_places); try discriminate; (split; [congruence|]); split; intros; solve [congruence | tauto]. }
  destruct E as [E1 E2]. unfold check_at. split.
  - rewrite <- E2. split.
    + intros P. destruct (s_enable s) eqn:En; [reflexivity| |congruence]. exfalso. revert P. apply failed_check_not_passed. auto.
    + intros En. apply check_passes. auto.
  - apply failed_check_not_passed. destruct (s_enable s); auto. congruence.
Qed.

(** Of all checks in the code exactly five raise an exception when they fail;
    every other one stops the process and prints its place and message. *)
Theorem code_checks : forall s, In s all_sites ->
  forall release fn values,
    length values = length (s_args s) ->
    (In (s_file s, s_line s) debug_places -> release = false) ->
    (In (s_file s, s_line s) raising_places /\ check_at s release false fn values = Raised) \/
    (~ In (s_file s, s_line s) raising_places /\
     exists ps names msg, Forall ordinary ps /\ s_msg s = spell ps /\
       listed (s_args s) names /\ filled ps [names] msg /\
       check_at s release false fn values = Stopped (report_line (s_file s) (s_line s) fn msg)).
Proof.
  intros s I release fn values L R0.
  assert (R : s_enable s = DebugOnly -> release = false).
  { intros En. destruct release; [|reflexivity]. apply R0. apply (checks_left_out_of_release s I fn values L). unfold check_at. apply check_passes. auto. }
  assert (En : s_enable s = DebugAndRelease \/ (s_enable s = DebugOnly /\ release = false)
               \/ (s_enable s = ReleaseOnly /\ release = true)).
  { assert (Q : Forall (fun s => s_enable s <> ReleaseOnly) all_sites)
      by (repeat (apply Forall_cons; [discriminate|]); apply Forall_nil).
    rewrite Forall_forall in Q. specialize (Q s I). destruct (s_enable s); auto; contradiction. }
  pose proof all_sites_pieces as P. rewrite Forall_forall in P. destruct (P s I) as [S O].
  assert (Src : map source (map (fun '(t, v) => Arg t v) (combine (s_args s) values)) = s_args s).
  { clear - L. revert values L. induction (s_args s) as [|a l IH]; intros [|v vs] L; try discriminate; cbn; auto.
    f_equal. apply IH. injection L. auto. }
  assert (D : In (s_file s, s_line s) raising_places /\ 2 <= holes (pieces_of s) \/ ~ In (s_file s, s_line s) raising_places /\ holes (pieces_of s) <= 1).
  { clear - I. assert (Q : Forall (fun s => In (s_file s, s_line s) raising_places /\ 2 <= holes (pieces_of s)
                                         \/ ~ In (s_file s, s_line s) raising_places /\ holes (pieces_of s) <= 1) all_sites).
    { assert (E : forallb (fun s => if in_dec place_eq_dec (s_file s, s_line s) raising_places then Nat.leb 2 (holes (pieces_of s)) else Nat.leb (holes (pieces_of s)) 1) all_sites = true)
        by (vm_compute; reflexivity).
      apply Forall_forall. intros x X. rewrite forallb_forall in E. specialize (E x X). cbn beta in E.
      destruct (in_dec place_eq_dec (s_file x, s_line x) raising_places); apply PeanoNat.Nat.leb_le in E; auto. }
    rewrite Forall_forall in Q. exact (Q s I). }
  unfold check_at. rewrite <- S. destruct D as [[D1 D2]|[D1 D2]].
  - left. split; [exact D1|]. apply failed_check_with_two_holes_raises; auto.
  - right. split; [exact D1|].
    destruct (failed_check_stops (s_enable s) release (pieces_of s)
      (map (fun '(t, v) => Arg t v) (combine (s_args s) values)) (s_file s) (s_line s) fn En O D2) as (names & msg & M0 & M1 & M2).
    exists (pieces_of s), names, msg. rewrite Src in M0. auto.
Qed.

(** ** The intended claims are false *)

(** "Prints the message ... and aborts" (helpers.h 130-131). *)
Theorem failed_check_always_stops_refuted :
  ~ (forall s, In s all_sites -> forall fn values, length values = length (s_args s) ->
       exists msg, check_at s false false fn values = Stopped msg).
Proof.
  intros H. destruct (H site_write) with (fn := tx "requestHostService") (values := [tx "-1"; tx "32"]) as [msg M].
  - cbn. auto 20.
  - reflexivity.
  - vm_compute in M. discriminate.
Qed.

(** The printed message shows the arguments' values. *)
Theorem failed_check_shows_values_refuted :
  ~ (forall e release ps args file line fn msg,
       Forall ordinary ps -> holes ps = length args ->
       filled ps (map value args) msg ->
       sandbox_invariant e release false (spell ps) args (Place file line fn) = Stopped (report_line file line fn msg)).
Proof.
  intros H.
  assert (E : sandbox_invariant DebugAndRelease true false (spell [Char "f"; Hole]) [Arg (tx "x") (tx "7")] (Place [] [] [])
              = Stopped (report_line [] [] [] (tx "f7"))).
  { apply H; [apply ordinaryb_ok; reflexivity|reflexivity|].
    apply f_char. apply (f_hole [] (tx "7") [] []). apply f_end. }
  vm_compute in E. discriminate.
Qed.

(** ** Examples *)

Example wake_check_stops :
  check_at (nth 5 all_sites site_write) true false (tx "wake") [tx "1"]
  = Stopped (tx "include/process_sandbox/platform/onebitsem_futex.h:42 in wake: Waking up one-bit semaphore that's already awake.  Count: old.
").
Proof. vm_compute. reflexivity. Qed.

Example two_holes_met : In site_read all_sites /\ In (s_file site_read, s_line site_read) raising_places /\ 2 <= holes (pieces_of site_read).
Proof. split; [cbn; auto 20|]. split; [cbn; auto|vm_compute; lia]. Qed.

Example doubled_braces : vformat (tx "{{{}}}") [tx "a"] = Some (tx "{a}").
Proof. reflexivity. Qed.

Print Assumptions check_passes.
Print Assumptions failed_check_not_passed.
Print Assumptions failed_check_stops.
Print Assumptions failed_check_with_two_holes_raises.
Print Assumptions failed_check_ignores_values.
Print Assumptions checks_left_out_of_release.
Print Assumptions code_checks.
Print Assumptions failed_check_always_stops_refuted.
Print Assumptions failed_check_shows_values_refuted.
