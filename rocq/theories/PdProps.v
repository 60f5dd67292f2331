(** Claimed theorems about process status on FreeBSD (C59). *)
From Coq Require Import List ZArith Bool Lia Arith.
From Verif Require Import ProcModel ProcSpec ProcProof PdModel PdSpec.
Import ListNotations.
Open Scope Z_scope.

(** Library i owns process i; its descriptor is open until the library is
    destroyed. *)
Definition gone (i : nat) (os : list pop) : Prop := In (PDestroy i) os.
Definition stz (st : kstate) : option Z := match st with Running => None | Zombie r => Some r end.

Record PI (os : list pop) (s : phost) (w : world) : Prop := {
  pi_len : length (plibs s) = length w;
  pi_kids : map (fun c => stz (cst c)) (children s) = w;
  pi_name : forall i l, nth_error (plibs s) i = Some l -> names l = Some i;
  pi_open : forall i c, nth_error (children s) i = Some c -> copen c = false -> gone i os;
  pi_seen : forall i l c, nth_error (plibs s) i = Some l -> pseen l = Some c -> exists raw, state_of w i = Some raw /\ c = wexit raw;
  pi_unseen : forall i l, nth_error (plibs s) i = Some l -> pseen l = None -> fetched l = false;
  pi_kill : forall i t, In (PTKill i t) (ptrace s) -> t = Some i }.

Lemma PI_init : PI [] pinit [].
Proof. constructor; cbn; auto; try (intros [|i]; discriminate); intros; contradiction. Qed.

Lemma nth_state s w i os : PI os s w -> forall c, nth_error (children s) i = Some c -> state_of w i = stz (cst c).
Proof.
  intros I c H. rewrite <- (pi_kids _ _ _ I). unfold state_of.
  apply nth_error_nth with (d := None). rewrite nth_error_map, H. reflexivity.
Qed.

Lemma PI_child os s w i : PI os s w -> (i < length (plibs s))%nat ->
  exists l c, nth_error (plibs s) i = Some l /\ nth_error (children s) i = Some c /\ names l = Some i.
Proof.
  intros I L. destruct (nth_error (plibs s) i) as [l|] eqn:E; [|apply nth_error_None in E; lia].
  assert (L2 : (i < length (children s))%nat).
  { pose proof (pi_len _ _ _ I) as A. pose proof (pi_kids _ _ _ I) as B. apply (f_equal (@length _)) in B. rewrite map_length in B. lia. }
  destruct (nth_error (children s) i) as [c|] eqn:E2; [|apply nth_error_None in E2; lia].
  exists l, c. split; auto. split; auto. eapply pi_name; eauto.
Qed.

Lemma PI_gone os os' s w : PI os s w -> (forall i, gone i os -> gone i os') -> PI os' s w.
Proof. intros [A B C D E F G] H. constructor; auto. intros i c X Y. apply H. eauto. Qed.

Lemma kills_waits i t n : In (PTKill i t) (repeat (PTKevent n) (S i)) -> False.
Proof. intros H. apply repeat_spec in H. discriminate. Qed.

Lemma pwait_ok block i n os s w s' r : PI os s w -> (i < length (plibs s))%nat -> ~ gone i os ->
  pwait block i n s = (s', r) ->
  PI os s' w /\ r = (match state_of w i with None => if block then RBlocked else RStatus false 0 | x => report x end).
Proof.
  intros I L N E. destruct (PI_child _ _ _ _ I L) as (l & c & Hl & Hc & Hn).
  pose proof (nth_state _ _ _ _ I _ Hc) as St.
  assert (Op : copen c = true) by (destruct (copen c) eqn:O; auto; destruct N; eapply pi_open; eauto).
  unfold pwait in E. rewrite Hl in E. destruct (pseen l) as [v|] eqn:Sn.
  - injection E as <- <-. split; auto. destruct (pi_seen _ _ _ I _ _ _ Hl Sn) as (raw & A & ->). rewrite A. cbn. rewrite wexit_div. auto.
  - assert (Ft := pi_unseen _ _ _ I _ _ Hl Sn).
    unfold pending in E. rewrite Hn, Hc in E. destruct c as [st op]; cbn [cst copen] in *. subst op.
    assert (TR : forall t j, In (PTKill j t) (ptrace s ++ repeat (PTKevent i) (S n)) -> t = Some j).
    { intros t j H. apply in_app_or in H as [H|H]; [eapply pi_kill; eauto|]. apply repeat_spec in H. discriminate. }
    destruct st as [|raw]; cbn [stz] in St; rewrite St.
    + injection E as <- <-. split; [|destruct block; auto]. destruct I as [A B C D F G K]. constructor; cbn [plibs children ptrace]; auto.
    + rewrite Ft in E. injection E as <- <-. split; [|cbn; rewrite wexit_div; auto].
      destruct I as [A B C D F G K].
      assert (UN : forall j x, nth_error (upd (plibs s) i (PLib (Some i) (Some (wexit raw)) true)) j = Some x ->
                (j = i /\ x = PLib (Some i) (Some (wexit raw)) true) \/ nth_error (plibs s) j = Some x).
      { intros j x H. rewrite upd_nth in H. destruct (Nat.eqb_spec i j) as [<-|Nj]; auto.
        destruct (Nat.ltb_spec i (length (plibs s))); [injection H as <-; auto|discriminate]. }
      constructor; cbn [plibs children ptrace]; auto.
      * rewrite upd_length. auto.
      * intros j x H. destruct (UN j x H) as [(-> & ->)|H']; [reflexivity|eauto].
      * intros j x v H V. destruct (UN j x H) as [(-> & ->)|H']; [|eauto]. cbn in V. injection V as <-. eauto.
      * intros j x H V. destruct (UN j x H) as [(-> & ->)|H']; [discriminate|eauto].
Qed.

Lemma list_ext {A} (a b : list A) : (forall j, nth_error a j = nth_error b j) -> a = b.
Proof.
  revert b. induction a as [|x a IH]; intros [|y b] H; auto; try (specialize (H 0%nat); discriminate).
  f_equal; [specialize (H 0%nat); cbn in H; congruence|]. apply IH. intros j. exact (H (S j)).
Qed.

Lemma upd_child os s w i st b :
  PI os s w -> (i < length (children s))%nat -> (b = false -> gone i os) ->
  (forall c, nth_error (children s) i = Some c -> stz st = match stz (cst c) with Some r => Some r | None => stz st end) ->
  PI os (PHost (plibs s) (upd (children s) i (Child st b)) (ptrace s)) (match stz st with Some r => ends i r w | None => w end).
Proof.
  intros [A B C D F G K] L Ob Co.
  assert (WL : length w = length (children s)) by (rewrite <- B, map_length; auto).
  destruct (nth_error (children s) i) as [c0|] eqn:E0; [|apply nth_error_None in E0; lia].
  specialize (Co c0 eq_refl).
  assert (KID : map (fun c => stz (cst c)) (upd (children s) i (Child st b)) = match stz st with Some r => ends i r w | None => w end).
  { apply list_ext. intros j. rewrite nth_error_map, upd_nth.
    assert (NW : forall k, nth_error w k = option_map (fun c => stz (cst c)) (nth_error (children s) k)) by (intros k; rewrite <- B; apply nth_error_map).
    assert (Q : nth_error (match stz st with Some r => ends i r w | None => w end) j =
                if Nat.eqb i j then if (i <? length (children s))%nat then Some (stz st) else None else nth_error w j).
    { destruct (stz st) as [r|] eqn:Z.
      - clear -Co Z WL NW L E0. assert (H0 := NW i). rewrite E0 in H0. cbn in H0.
        destruct (Nat.ltb_spec i (length (children s))); [|lia]. clear NW WL L H E0.
        revert i j H0. induction w as [|x w' IH]; intros [|i] [|j] H0; cbn in *; auto; try discriminate.
        injection H0 as ->. destruct (stz (cst c0)); congruence.
      - destruct (Nat.eqb_spec i j) as [<-|]; auto. rewrite NW, E0. destruct (Nat.ltb_spec i (length (children s))); [|lia].
        cbn. destruct (stz (cst c0)); congruence. }
    rewrite Q. destruct (Nat.eqb_spec i j); [destruct (i <? length (children s))%nat; auto|rewrite NW; auto]. }
  assert (SO : forall j raw, state_of w j = Some raw -> state_of (match stz st with Some r => ends i r w | None => w end) j = Some raw).
  { intros j raw S. destruct (stz st) as [r|]; auto. destruct (Nat.ltb_spec j (length w)) as [J|J].
    - rewrite ends_state by auto. rewrite S. destruct (Nat.eqb _ _); auto.
    - unfold state_of in S. rewrite nth_overflow in S by auto. discriminate. }
  constructor; cbn [plibs children ptrace]; auto.
  - rewrite A. destruct (stz st); auto. rewrite ends_length. auto.
  - intros j c H O. rewrite upd_nth in H. destruct (Nat.eqb_spec i j) as [<-|]; [|eauto].
    destruct (i <? length (children s))%nat; [|discriminate]. injection H as <-. auto.
  - intros j l c H V. destruct (F j l c H V) as (raw & S & ->). exists raw. auto.
Qed.

Lemma ends_same i r w : state_of w i = Some r -> forall raw, ends i raw w = w.
Proof.
  revert i. induction w as [|x w IH]; intros [|i] H raw; cbn in *; auto; try discriminate.
  - subst x. reflexivity.
  - f_equal. apply IH. auto.
Qed.
Lemma ends_out i w raw : (length w <= i)%nat -> ends i raw w = w.
Proof. revert i. induction w as [|x w IH]; intros [|i] H; cbn in *; auto; [lia|]. f_equal. apply IH. lia. Qed.

Lemma kill_ok os s w i : PI os s w -> (i < length (plibs s))%nat -> ~ gone i os ->
  PI os (PHost (plibs s) (pkill i (children s)) (ptrace s ++ [PTKill i (Some i)])) (ends i SIGKILL w).
Proof.
  intros I L N. destruct (PI_child _ _ _ _ I L) as (l & c & Hl & Hc & Hn). pose proof (nth_state _ _ _ _ I _ Hc) as St.
  assert (TR : forall s' w', PI os s' w' -> ptrace s' = ptrace s -> PI os (PHost (plibs s') (children s') (ptrace s ++ [PTKill i (Some i)])) w').
  { intros s' w' [A B C D F G K] T. constructor; cbn [plibs children ptrace]; auto. intros j t H.
    apply in_app_or in H as [H|[H|[]]]; [rewrite <- T in H; eauto|]. injection H as <- <-. auto. }
  unfold pkill. rewrite Hc. destruct c as [[|r] op]; cbn [cst stz] in St.
  - assert (op = true) by (destruct op; auto; destruct N; eapply (pi_open _ _ _ I); eauto). subst op.
    apply (TR (PHost (plibs s) (upd (children s) i (Child (Zombie SIGKILL) true)) (ptrace s))); auto.
    apply (upd_child os s w i (Zombie SIGKILL) true); auto; try discriminate.
    + apply nth_error_Some. congruence.
    + intros c X. rewrite Hc in X. injection X as <-. reflexivity.
  - rewrite (ends_same _ _ _ St). apply (TR s w); auto.
Qed.

Lemma pstep_ok os o s w s' r : PI os s w -> ppossible o s ->
  (match o with PForkFails _ => False | _ => True end) -> (forall i, about i o -> ~ gone i os) ->
  pstep o s = (s', r) -> PI (os ++ [o]) s' (fst (pspec_step o w)) /\ r = snd (pspec_step o w).
Proof.
  intros I P Q G E.
  assert (GM : forall i, gone i os -> gone i (os ++ [o])) by (intros i H; apply in_or_app; auto).
  destruct o; cbn [pstep pspec_step fst snd] in *; try contradiction.
  - injection E as <- <-. split; auto. apply (PI_gone os); auto.
    assert (WL : length w = length (children s)) by (rewrite <- (pi_kids _ _ _ I), map_length; auto).
    destruct I as [A B C D F GG K]. constructor; cbn [plibs children ptrace]; auto.
    + rewrite !app_length. cbn. lia.
    + rewrite map_app, B. reflexivity.
    + intros i l H. destruct (Nat.ltb_spec i (length (plibs s))) as [X|X]; [rewrite nth_error_app1 in H by auto; eauto|].
      rewrite nth_error_app2 in H by auto. destruct (i - length (plibs s))%nat as [|[|k]] eqn:Z; cbn in H; try discriminate. injection H as <-. cbn. f_equal. lia.
    + intros i c H O. destruct (Nat.ltb_spec i (length (children s))) as [X|X]; [rewrite nth_error_app1 in H by auto; eauto|].
      rewrite nth_error_app2 in H by auto. destruct (i - length (children s))%nat as [|[|k]]; cbn in H; try discriminate. injection H as <-. discriminate.
    + intros i l c H V. destruct (Nat.ltb_spec i (length (plibs s))) as [X|X].
      * rewrite nth_error_app1 in H by auto. destruct (F _ _ _ H V) as (raw & S & ->). exists raw. split; auto. unfold state_of in *. rewrite app_nth1 by lia. auto.
      * rewrite nth_error_app2 in H by auto. destruct (i - length (plibs s))%nat as [|[|k]]; cbn in H; try discriminate. injection H as <-. discriminate.
    + intros i l H V. destruct (Nat.ltb_spec i (length (plibs s))) as [X|X]; [rewrite nth_error_app1 in H by auto; eauto|].
      rewrite nth_error_app2 in H by auto. destruct (i - length (plibs s))%nat as [|[|k]]; cbn in H; try discriminate. injection H as <-. reflexivity.
  - injection E as <- <-. split; auto. apply (PI_gone os); auto.
  - injection E as <- <-. split; auto. apply (PI_gone os); auto.
    destruct (nth_error (children s) u) as [c|] eqn:Hc.
    + pose proof (nth_state _ _ _ _ I _ Hc) as St. destruct c as [[|r0] b]; cbn [cst stz] in St.
      * apply (upd_child os s w u (Zombie raw) b); auto.
        -- apply nth_error_Some. congruence.
        -- intros ->. eapply (pi_open _ _ _ I); eauto.
        -- intros c X. rewrite Hc in X. injection X as <-. reflexivity.
      * rewrite (ends_same _ _ _ St). destruct s; exact I.
    + rewrite ends_out; [destruct s; exact I|]. rewrite <- (pi_kids _ _ _ I), map_length. apply nth_error_None in Hc. exact Hc.
  - destruct (pwait_ok _ _ _ _ _ _ _ _ I P (G i eq_refl) E) as [A ->]. split; [apply (PI_gone os); auto|]. destruct (state_of w i); auto.
  - destruct (pwait_ok _ _ _ _ _ _ _ _ I P (G i eq_refl) E) as [A ->]. split; [apply (PI_gone os); auto|]. destruct (state_of w i); auto.
  - unfold plib_terminate in E. destruct (pwait false i intr s) as [s1 r1] eqn:E1.
    assert (L1 : (i < length (plibs s1))%nat).
    { unfold pwait in E1. cbn in P. destruct (nth_error (plibs s) i); [|injection E1 as <- <-; auto].
      destruct (pseen p); [injection E1 as <- <-; auto|]. destruct (pending s p); injection E1 as <- <-; cbn; rewrite ?upd_length; auto. }
    destruct (pwait_ok _ _ _ _ _ _ _ _ I P (G i eq_refl) E1) as [A R1]. destruct (state_of w i) as [raw|] eqn:St.
    + subst r1. cbn [report] in E. injection E as <- <-. split; auto. rewrite (ends_same _ _ _ St). apply (PI_gone os); auto.
    + subst r1. injection E as <- <-. split; auto. apply (PI_gone os); auto.
      destruct (PI_child _ _ _ _ A L1) as (l & c & Hl & Hc & Hn). unfold pterminate. rewrite Hl, Hn. apply kill_ok; auto. apply (G i eq_refl).
  - injection E as <- <-. split; auto. apply (PI_gone os); auto. cbn in P.
    destruct (PI_child _ _ _ _ I P) as (l & c & Hl & Hc & Hn). unfold pterminate. rewrite Hl, Hn. apply kill_ok; auto. apply (G i eq_refl).
  - injection E as <- <-. split; auto. cbn in P. destruct (PI_child _ _ _ _ I P) as (l & c & Hl & Hc & Hn).
    pose proof (nth_state _ _ _ _ I _ Hc) as St. unfold pdestroy. rewrite Hl, Hn, Hc.
    assert (I' := PI_gone os (os ++ [PDestroy i]) s w I GM).
    assert (GI : gone i (os ++ [PDestroy i])) by (apply in_or_app; right; left; auto).
    assert (Lc : (i < length (children s))%nat) by (apply nth_error_Some; congruence).
    assert (NO : copen c = true) by (destruct (copen c) eqn:O; auto; destruct (G i eq_refl); eapply (pi_open _ _ _ I); eauto).
    destruct c as [[|r0] b]; cbn [cst copen stz] in *; subst b.
    + apply (upd_child _ s w i (Zombie SIGKILL) false); auto. intros c X. rewrite Hc in X. injection X as <-. reflexivity.
    + rewrite (ends_same _ _ _ St). pose proof (upd_child _ s w i (Zombie r0) false I' Lc (fun _ => GI)) as U.
      cbn [stz] in U. rewrite (ends_same _ _ _ St) in U. apply U. intros c X. rewrite Hc in X. injection X as <-. reflexivity.
Qed.

Lemma pspec_snoc os o w : pspec_run (os ++ [o]) w =
  (fst (pspec_step o (fst (pspec_run os w))), snd (pspec_run os w) ++ [snd (pspec_step o (fst (pspec_run os w)))]).
Proof.
  revert w. induction os as [|a os IH]; intros w; cbn; [destruct (pspec_step o w); auto|].
  destruct (pspec_step a w) as [w1 r]. rewrite IH. destruct (pspec_run os w1). auto.
Qed.

Lemma pproper_snoc os o : pproper (os ++ [o]) -> pproper os /\ (match o with PForkFails _ => False | _ => True end) /\ forall i, about i o -> ~ gone i os.
Proof.
  intros [A B]. split; [split|split].
  - intros x X. apply A, in_or_app; auto.
  - intros os1 i os2 x -> X. apply (B os1 i (os2 ++ [o])); [rewrite <- app_assoc; auto|apply in_or_app; auto].
  - apply A, in_or_app. right; left; auto.
  - intros i H D. apply in_split in D as (a & b & ->). apply (B a i (b ++ [o]) o); auto.
    + rewrite <- app_assoc. auto.
    + apply in_or_app. right; left; auto.
Qed.

Lemma pruns_ok os rs s : pruns pinit os rs s -> pproper os -> PI os s (fst (pspec_run os [])) /\ rs = snd (pspec_run os []).
Proof.
  intros R. remember pinit as s0. induction R as [|s0 os rs s1 o s2 r R IH P E]; intros F.
  - subst. split; [apply PI_init|auto].
  - destruct (pproper_snoc _ _ F) as (F1 & F2 & F3). destruct (IH Heqs0 F1) as [I ->].
    destruct (pstep_ok _ _ _ _ _ _ I P F2 F3 E) as [I2 ->]. rewrite pspec_snoc. split; auto.
Qed.

(** Whatever sequence of forks, exits, queries, waits, terminations and
    destructions of any number of libraries happens, every call returns what the
    library's own process warrants; only a failure to set up a new library ends
    the host. *)
Theorem pd_status_is_own_process os rs s :
  pruns pinit os rs s -> pproper os -> rs = snd (pspec_run os []).
Proof. intros R F. apply (pruns_ok os rs s R F). Qed.
Print Assumptions pd_status_is_own_process.

(** Terminating a library, even through the low-level call and even after its
    process has ended, signals its own process or nothing. *)
Theorem pd_terminate_hits_own_process os rs s i t :
  pruns pinit os rs s -> pproper os -> In (PTKill i t) (ptrace s) -> t = Some i.
Proof. intros R F. destruct (pruns_ok os rs s R F) as [I _]. apply (pi_kill _ _ _ I). Qed.
Print Assumptions pd_terminate_hits_own_process.

(** Destroying a library leaves no process behind and touches no other. *)
Theorem pd_destroy_ends_process os rs s i s' r :
  pruns pinit os rs s -> pproper (os ++ [PDestroy i]) -> (i < length (plibs s))%nat -> pstep (PDestroy i) s = (s', r) ->
  (exists raw, option_map cst (nth_error (children s') i) = Some (Zombie raw)) /\
  forall j, j <> i -> nth_error (children s') j = nth_error (children s) j.
Proof.
  intros R F L E. destruct (pproper_snoc _ _ F) as (F1 & _ & F3). destruct (pruns_ok os rs s R F1) as [I _].
  destruct (PI_child _ _ _ _ I L) as (l & c & Hl & Hc & Hn). cbn in E. injection E as <- <-. unfold pdestroy. rewrite Hl, Hn, Hc.
  assert (Lc : (i < length (children s))%nat) by (apply nth_error_Some; congruence). apply Nat.ltb_lt in Lc.
  assert (NO : copen c = true) by (destruct (copen c) eqn:O; auto; destruct (F3 i eq_refl); eapply (pi_open _ _ _ I); eauto).
  destruct c as [[|r0] b]; cbn [copen] in NO; subst b; cbn [children]; split;
    try (eexists; rewrite upd_nth, Nat.eqb_refl, Lc; reflexivity); intros j J; rewrite upd_nth; destruct (Nat.eqb_spec i j); congruence.
Qed.
Print Assumptions pd_destroy_ends_process.

Lemma pseen_step o s s' r i nm c f : nth_error (plibs s) i = Some (PLib nm (Some c) f) ->
  pstep o s = (s', r) -> nth_error (plibs s') i = Some (PLib nm (Some c) f).
Proof.
  intros H E.
  assert (Hl : (i < length (plibs s))%nat) by (apply nth_error_Some; rewrite H; discriminate).
  assert (W : forall b j n s1 r1, pwait b j n s = (s1, r1) -> nth_error (plibs s1) i = Some (PLib nm (Some c) f)).
  { intros b j n s1 r1 W. unfold pwait in W. destruct (nth_error (plibs s) j) as [l|] eqn:Ej; [|injection W as <- <-; auto].
    destruct (pseen l) as [c'|] eqn:Es; [injection W as <- <-; auto|].
    destruct (pending s l); injection W as <- <-; cbn; auto.
    rewrite upd_nth. destruct (Nat.eqb_spec j i) as [->|N]; auto. rewrite H in Ej. injection Ej as <-. discriminate. }
  assert (T : forall j s1, nth_error (plibs s1) i = Some (PLib nm (Some c) f) -> nth_error (plibs (pterminate j s1)) i = Some (PLib nm (Some c) f)).
  { intros j s1 X. unfold pterminate. destruct (nth_error (plibs s1) j); auto. }
  destruct o; cbn in E; try (injection E as <- <-; cbn; auto).
  - rewrite nth_error_app1; auto.
  - destruct garbage as [u|]; [|injection E as <- <-; auto]. destruct (nth_error (children s) u) as [[st []]|]; injection E as <- <-; auto.
    cbn. rewrite nth_error_app1; auto.
  - eapply W; eauto.
  - eapply W; eauto.
  - unfold plib_terminate in E. destruct (pwait false i0 intr s) as [s1 r1] eqn:E1.
    apply W in E1. destruct r1 as [[] ?| | |]; injection E as <- <-; auto.
  - unfold pdestroy. destruct (nth_error (plibs s) i0) as [l|]; auto. destruct (names l); auto.
    destruct (nth_error (children s) n) as [[[] []]|]; auto.
Qed.

(** Once a query has reported the exit, every later query and wait reports the
    same status and makes no system call, whatever happens in between. *)
Theorem pd_status_sticky s i n s1 code os rs s2 :
  pstep (PQuery i n) s = (s1, RStatus true code) -> pruns s1 os rs s2 ->
  forall n', pstep (PQuery i n') s2 = (s2, RStatus true code) /\ pstep (PWaitFor i n') s2 = (s2, RStatus true code).
Proof.
  intros E R n'.
  assert (H : exists nm f, nth_error (plibs s1) i = Some (PLib nm (Some code) f)).
  { cbn in E. unfold pwait in E. destruct (nth_error (plibs s) i) as [l|] eqn:Ei; [|discriminate].
    destruct (pseen l) as [c|] eqn:Es.
    - injection E as <- <-. exists (names l), (fetched l). rewrite Ei. destruct l; cbn in *; subst; auto.
    - destruct (pending s l) as [raw|]; [|discriminate]. injection E as <- <-. exists (names l), true. cbn.
      rewrite upd_nth, Nat.eqb_refl.
      assert (Hl : (i < length (plibs s))%nat) by (apply nth_error_Some; rewrite Ei; discriminate).
      apply Nat.ltb_lt in Hl. rewrite Hl. auto. }
  destruct H as (nm & f & H).
  assert (H2 : nth_error (plibs s2) i = Some (PLib nm (Some code) f)).
  { clear E. induction R as [|s0 os rs s3 o s4 r R IH P St]; auto. eapply pseen_step; [|exact St]; auto. }
  cbn. unfold pwait. rewrite H2. cbn. auto.
Qed.
Print Assumptions pd_status_sticky.

(** ** Limits *)

(** A process that died from a signal reads as exit code 0. *)
Theorem pd_signal_death_reports_zero s i l u sig n :
  nth_error (plibs s) i = Some l -> names l = Some u -> pseen l = None -> fetched l = false ->
  nth_error (children s) u = Some (Child (Zombie sig) true) -> 0 <= sig < 128 ->
  snd (pstep (PQuery i n) s) = RStatus true 0.
Proof.
  intros Hl Hn Hs Hf Hc B. cbn. unfold pwait. rewrite Hl, Hs. unfold pending. rewrite Hn, Hc, Hf. cbn.
  rewrite wexit_div, (Z.div_small sig 256) by lia. reflexivity.
Qed.
Print Assumptions pd_signal_death_reports_zero.

(** A pdfork that fails goes unnoticed: if the uninitialised number happens to be
    another library's process descriptor, the new library reports that process's
    status, and terminating or destroying it ends that process with SIGKILL (9). *)
Theorem pd_failed_fork_adopts s u :
  nth_error (children s) u = Some (Child Running true) ->
  exists s1, pstep (PForkFails (Some u)) s = (s1, RDone) /\
    forall o, o = PTerminate (length (plibs s)) 0 \/ o = PRawTerminate (length (plibs s)) \/ o = PDestroy (length (plibs s)) ->
    option_map cst (nth_error (children (fst (pstep o s1))) u) = Some (Zombie 9).
Proof.
  intros H. cbn. rewrite H. eexists. split; [reflexivity|].
  assert (L : (u < length (children s))%nat) by (apply nth_error_Some; congruence). apply Nat.ltb_lt in L.
  assert (N : nth_error (plibs s ++ [PLib (Some u) None false]) (length (plibs s)) = Some (PLib (Some u) None false)).
  { rewrite nth_error_app2, Nat.sub_diag by auto. reflexivity. }
  intros o [->|[->| ->]]; cbn [pstep fst].
  - unfold plib_terminate, pwait. cbn [plibs]. rewrite N. cbn [pseen]. unfold pending. cbn [names children fetched]. rewrite H.
    cbn [fst]. unfold pterminate. cbn [plibs]. rewrite N. cbn [names children]. unfold pkill. rewrite H.
    rewrite upd_nth, Nat.eqb_refl, L. reflexivity.
  - unfold pterminate. cbn [plibs]. rewrite N. cbn [names children]. unfold pkill. rewrite H.
    rewrite upd_nth, Nat.eqb_refl, L. reflexivity.
  - unfold pdestroy. cbn [plibs]. rewrite N. cbn [names children]. rewrite H. cbn [children].
    rewrite upd_nth, Nat.eqb_refl, L. reflexivity.
Qed.
Print Assumptions pd_failed_fork_adopts.
(** Otherwise it ends the host. *)
Theorem pd_failed_fork_exits s g :
  (forall u, g = Some u -> forall st, nth_error (children s) u <> Some (Child st true)) -> snd (pstep (PForkFails g) s) = RExit.
Proof.
  intros H. cbn. destruct g as [u|]; auto. destruct (nth_error (children s) u) as [[st []]|] eqn:E; auto. destruct (H u eq_refl st E).
Qed.
Print Assumptions pd_failed_fork_exits.

(** Two threads: if one waits while another polls, and the poll gets the exit
    event, the wait never returns although the process has ended and its status
    is known. *)
Lemma pr_stuck s s' raw : prace_reach s s' -> pt2 s = PChecked -> prkid s = Some raw -> prevent s = true ->
  pt2 s' = PChecked /\ prkid s' = Some raw /\ prevent s' = true.
Proof.
  intros R. induction R as [s|s s1 s2 R IH St]; intros A B C; auto. destruct (IH A B C) as (X & Y & Z). clear IH A B C.
  inversion St; subst; cbn [pt2 prkid prevent]; auto.
  - split; auto. split; auto. unfold pthread in H. rewrite Y, Z in H. destruct (pt1 s1); (discriminate H || (inversion H; subst; auto)).
  - unfold pthread in H. rewrite X, Y, Z in H. discriminate.
  - congruence.
Qed.
Theorem pd_concurrent_wait_hangs_refuted :
  exists s, prace_reach prace_init s /\ prseen s = Some 3 /\ forall s', prace_reach s s' -> pt2 s' = PChecked.
Proof.
  exists (PRace (Some 3) (Some 768) true (PDone true) PChecked). split; [|split; auto].
  - eapply prr_1; [eapply prr_1; [eapply prr_1; [eapply prr_1; [eapply prr_1; [apply prr_0|]|]|]|]|].
    + eapply pr_1. reflexivity.
    + eapply pr_2. reflexivity.
    + eapply (pr_exit _ 768). reflexivity.
    + eapply pr_1. reflexivity.
    + eapply (pr_1 (PRace None (Some 768) true (PGot 768) PChecked)). reflexivity.
  - intros s' R. eapply pr_stuck; eauto; reflexivity.
Qed.
Print Assumptions pd_concurrent_wait_hangs_refuted.
(** Unlike on Linux, polling concurrently never ends the host and, once a status
    is known, every thread that starts a poll sees it. *)
Theorem pd_poll_sees_cached s s' c :
  prace_reach prace_init s -> prseen s = Some c -> pt1 s = PStart -> prace_step s s' -> pt1 s' <> pt1 s -> pt1 s' = PDone true.
Proof.
  intros _ H P St N. inversion St; subst; cbn in *; try congruence. rewrite P, H in H0. cbn in H0. injection H0 as <- <- <-. auto.
Qed.
Print Assumptions pd_poll_sees_cached.
(** And what a thread is told is true, but for one moment: "ended" only when the
    process has ended; "running" only when it runs, or when another thread has
    fetched its exit event and not yet recorded the status. *)
Lemma prace_known s : prace_reach prace_init s -> (prseen s <> None -> prkid s <> None) /\ (prevent s = true -> prkid s <> None) /\
  (forall r, pt1 s = PGot r \/ pt2 s = PGot r -> prkid s <> None).
Proof.
  intros R. assert (I : exists s0, s0 = prace_init /\ prace_reach s0 s) by eauto. clear R. destruct I as (s0 & E & R).
  induction R as [s|s s1 s2 R IH St].
  - subst. cbn. split; [congruence|]. split; [discriminate|]. intros r [H|H]; discriminate.
  - destruct (IH E) as (A & B & C). clear IH.
    assert (T : forall block t v e t', t = pt1 s1 \/ t = pt2 s1 -> pthread block (prseen s1) (prkid s1) (prevent s1) t = Some (v, e, t') ->
      (v <> None -> prkid s1 <> None) /\ (e = true -> prkid s1 <> None) /\ (forall r, t' = PGot r -> prkid s1 <> None)).
    { intros block t v e t' T H. destruct t; cbn in H.
      - injection H as <- <- <-. split; auto. split; auto. intros r. destruct (prseen s1); discriminate.
      - destruct (prkid s1) as [z|] eqn:K; [split; [discriminate|split; [discriminate|discriminate]]|].
        destruct block; [discriminate|]. injection H as <- <- <-. split; auto. split; auto. discriminate.
      - injection H as <- <- <-. assert (prkid s1 <> None) by (apply (C raw); destruct T; auto). auto.
      - discriminate. }
    inversion St; subst; cbn [prseen prkid prevent pt1 pt2].
    + destruct (T _ _ _ _ _ (or_introl eq_refl) H) as (X & Y & Z). split; auto. split; auto. intros r [K|K]; eauto.
    + destruct (T _ _ _ _ _ (or_intror eq_refl) H) as (X & Y & Z). split; auto. split; auto. intros r [K|K]; eauto.
    + split; [discriminate|]. split; discriminate.
    + split; auto. split; auto. intros r [K|K]; [discriminate|eauto].
Qed.
Theorem pd_concurrent_answers s block t v e b : prace_reach prace_init s -> t = pt1 s \/ t = pt2 s ->
  pthread block (prseen s) (prkid s) (prevent s) t = Some (v, e, PDone b) ->
  (b = true -> prkid s <> None) /\ (b = false -> prseen s = None /\ (prkid s = None \/ prevent s = true)).
Proof.
  intros R T H. destruct (prace_known s R) as (A & B & C). destruct t; cbn in H.
  - destruct (prseen s); [|discriminate]. injection H as <- <- <-. split; [intros _; apply A; discriminate|discriminate].
  - destruct (prkid s) as [z|] eqn:K.
    + destruct (prevent s) eqn:EV; [|discriminate]. destruct block; [discriminate|]. injection H as <- <- <-.
      split; [discriminate|]. destruct (prseen s); [discriminate|auto].
    + destruct block; [discriminate|]. injection H as <- <- <-.
      destruct (prseen s); [exfalso; apply A; [discriminate|auto]|]. split; [discriminate|auto].
  - injection H as <- <- <-. split; [intros _; apply (C raw); destruct T; auto|discriminate].
  - discriminate.
Qed.
Print Assumptions pd_concurrent_answers.
Example pd_concurrent_answers_ex : exists s v e, prace_reach prace_init s /\ prkid s = Some 768 /\
  pthread false (prseen s) (prkid s) (prevent s) (pt1 s) = Some (v, e, PDone false).
Proof.
  exists (PRace None (Some 768) true PChecked (PGot 768)). do 2 eexists. split; [|split; reflexivity].
  eapply prr_1; [eapply prr_1; [eapply prr_1; [eapply prr_1; [apply prr_0|]|]|]|].
  - eapply pr_1. reflexivity.
  - eapply pr_2. reflexivity.
  - eapply (pr_exit _ 768). reflexivity.
  - eapply (pr_2 (PRace None (Some 768) false PChecked PChecked)). reflexivity.
Qed.

Lemma pruns_cons s o s1 r os rs s2 : ppossible o s -> pstep o s = (s1, r) -> pruns s1 os rs s2 -> pruns s (o :: os) (r :: rs) s2.
Proof.
  intros P E R. induction R as [s0|s0 os rs s3 o' s4 r' R IH P' E'].
  - apply (pruns_snoc s [] [] s o s0 r); auto. apply pruns_0.
  - apply (pruns_snoc s (o :: os) (r :: rs) s3 o' s4 r'); auto.
Qed.
(** A history meeting the hypotheses. *)
Definition pd_history := [PFork; PQuery 0 2; PFork; PExits 0 768; PQuery 0 0; PRawTerminate 0; PTerminate 1 0; PQuery 0 0; PWaitFor 1 0; PDestroy 0].
Example pd_ex : pproper pd_history /\
  exists s, pruns pinit pd_history [RDone; RStatus false 0; RDone; RDone; RStatus true 3; RDone; RDone; RStatus true 3; RStatus true 0; RDone] s
  /\ kevents 0 (ptrace s) = 4%nat /\ In (PTKill 1 (Some 1%nat)) (ptrace s).
Proof.
  split.
  { split.
    - intros o H. unfold pd_history in H. cbn in H. intuition (subst; auto).
    - intros os1 i os2 o E H. unfold pd_history in E.
      repeat (destruct os1 as [|? os1]; cbn in E; [try discriminate; inversion E; subst; contradiction|injection E as _ E]).
      destruct os1; discriminate. }
  eexists. split.
  - unfold pd_history. repeat (eapply pruns_cons; [cbn; auto; lia|reflexivity|]). apply pruns_0.
  - split; [reflexivity|cbn; tauto].
Qed.
