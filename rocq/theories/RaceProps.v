(** Theorems on data races between host and sandbox (property C80). *)
From Coq Require Import List ZArith Bool Lia.
From Verif Require Import ProtoModel ThrowModel MtModel RaceModel RaceSpec RaceProof.
Import ListNotations.
Open Scope Z_scope.

(** C80. No data race: whatever the program and the library do, whenever handlers
    throw and whenever the sandbox dies, two accesses of different sides to the
    same field of the shared header that is not atomic, from the start of the sandbox on, are
    ordered by happens-before. *)
Theorem no_data_race debug host_do child_do ks es s p i j m n :
  exec debug false host_do child_do (fresh ks) es s ->
  atomic p = false -> (i < j)%nat -> nth_error es i = Some m -> nth_error es j = Some n -> by_ m <> by_ n ->
  uses debug false host_do child_do p m -> uses debug false host_do child_do p n ->
  hb debug false host_do child_do es i j.
Proof.
  intros X At L Em En B Um Un. destruct (start_fresh debug host_do child_do host_starts ks) as (A & M & T); [auto|].
  eapply (all_ordered debug host_do child_do host_starts); eauto; left; eauto.
Qed.

(** C80. The same for user code, and so for all memory that the program and the
    library share through arguments and results: every event on one side is
    ordered with every event on the other, except that the program may start its
    first call, or give up the library, while the library is still loading. *)
Theorem user_code_ordered debug host_do child_do ks es s i j m n :
  exec debug false host_do child_do (fresh ks) es s ->
  (i < j)%nat -> nth_error es i = Some m -> nth_error es j = Some n -> by_ m <> by_ n ->
  (exists p, atomic p = false /\ uses debug false host_do child_do p m) \/ acts host_starts m ->
  (exists p, atomic p = false /\ uses debug false host_do child_do p n) \/ acts host_starts n ->
  hb debug false host_do child_do es i j.
Proof.
  intros X L Em En B Um Un. destruct (start_fresh debug host_do child_do host_starts ks) as (A & M & T); [auto|].
  eapply (all_ordered debug host_do child_do host_starts); eauto.
Qed.
(** C80. Once it is loaded there is no exception. *)
Theorem loaded_code_ordered debug host_do child_do es s i j m n :
  exec debug false host_do child_do idle es s ->
  (i < j)%nat -> nth_error es i = Some m -> nth_error es j = Some n -> by_ m <> by_ n ->
  (exists p, atomic p = false /\ uses debug false host_do child_do p m) \/ acts nothing m ->
  (exists p, atomic p = false /\ uses debug false host_do child_do p n) \/ acts nothing n ->
  hb debug false host_do child_do es i j.
Proof.
  intros X L Em En B Um Un. destruct (start_idle debug host_do child_do nothing) as (A & M & T).
  eapply (all_ordered debug host_do child_do nothing); eauto.
Qed.

(** ** Executions by schedule *)
Section Play.
Variable debug spurious : bool.
Variable host_do : list event -> xact.
Variable child_do : list event -> cact.
Fixpoint play (l : list (side * bool)) (es : list move) (s : conf) : option (list move * conf) :=
  match l with
  | [] => Some (es, s)
  | (w, fail) :: r =>
    match (match w with Host => xhost_step debug spurious host_do fail s | Sandbox => child_step debug child_do fail s end) with
    | Some s' => play r (es ++ [Move w s s']) s'
    | None => None
    end
  end.
Lemma play_exec l : forall s0 es s es' s', exec debug spurious host_do child_do s0 es s -> play l es s = Some (es', s') ->
  exec debug spurious host_do child_do s0 es' s'.
Proof.
  induction l as [|[w f] r IH]; intros s0 es s es' s' X E; cbn in E; [injection E as <- <-; exact X|].
  destruct w.
  - destruct (xhost_step debug spurious host_do f s) as [t|] eqn:Et; [|discriminate]. eapply IH; [|exact E].
    apply exec_move; [exact X|]. now exists f.
  - destruct (child_step debug child_do f s) as [t|] eqn:Et; [|discriminate]. eapply IH; [|exact E].
    apply exec_move; [exact X|]. left. now exists f.
Qed.
Notation hb := (hb debug spurious host_do child_do).
Lemma hb_lt es i j : hb es i j -> (i < j)%nat.
Proof. induction 1; lia. Qed.
Lemma hb_next es i m n : nth_error es i = Some m -> nth_error es (S i) = Some n -> hb es i (S i) ->
  by_ m = by_ n \/ exists c, sends c m.
Proof.
  intros Em En H. remember (S i) as j eqn:Ej. destruct H as [i j a b L A B S|c i j a b L A B S R Sy N|i j k H1 H2].
  - left. congruence.
  - right. exists c. replace m with a by congruence. exact S.
  - apply hb_lt in H1, H2. lia.
Qed.
Lemma next_unordered es i m n : nth_error es i = Some m -> nth_error es (S i) = Some n -> by_ m <> by_ n ->
  (forall c, ~ sends c m) -> unordered debug spurious host_do child_do es i (S i).
Proof.
  intros Em En B N. split; [now exists m, n|]. split.
  - intros H. destruct (hb_next _ _ _ _ Em En H) as [X|[c X]]; [contradiction|now apply N in X].
  - intros H. apply hb_lt in H. lia.
Qed.
End Play.

(** A program that calls function 1 with frame 7 whenever it is not in a handler,
    and a library that returns at once. *)
Definition caller (l : list event) : xact :=
  match last l EQuit with EHandle _ => XDo (HReturn 5) | _ => XDo (HCall 1 7) end.
Definition returner (l : list event) : cact := CReturn.
Definition h := (Host, false).
Definition c := (Sandbox, false).

(** The hypotheses are met: in a first call, with a callback while loading, the
    sandbox clears the frame field while it loads (18), the host writes both fields
    (26, 27), the sandbox reads the index (33); the host sees the call return last
    (41). *)
Definition first_call : list (side * bool) := repeat c 4 ++ repeat h 9 ++ repeat c 11 ++ repeat h 6 ++ repeat c 10 ++ repeat h 2.
Definition moves (o : option (list move * conf)) : list move := match o with Some (es, _) => es | None => [] end.
Definition at_ (es : list move) (k : nat) : move := nth k es (Move Host idle idle).
Definition first_moves : list move := Eval vm_compute in moves (play true false caller returner first_call [] (fresh [3])).
Ltac not_for v := let N := fresh in intros N; specialize (N v); destruct N as [f X]; destruct f; vm_compute in X; discriminate X.
Ltac not_for_child v := let N := fresh in intros N; specialize (N v); destruct N as [[f X]|[_ X]]; [destruct f; vm_compute in X; discriminate X|vm_compute in X; discriminate X].
Example race_hypotheses_met :
  let es := first_moves in
  (exists s, exec true false caller returner (fresh [3]) es s /\ In (EDone 1 7) (log s)) /\ length es = 42%nat /\
  by_ (at_ es 18) = Sandbox /\ uses true false caller returner MsgBuffer (at_ es 18) /\
  by_ (at_ es 27) = Host /\ uses true false caller returner MsgBuffer (at_ es 27) /\
  by_ (at_ es 26) = Host /\ uses true false caller returner FunctionIndex (at_ es 26) /\
  by_ (at_ es 33) = Sandbox /\ uses true false caller returner FunctionIndex (at_ es 33) /\
  by_ (at_ es 41) = Host /\ acts nothing (at_ es 41).
Proof.
  cbv zeta. split.
  { assert (E : exists s, play true false caller returner first_call [] (fresh [3]) = Some (first_moves, s) /\ In (EDone 1 7) (log s)).
    { eexists. split; [vm_compute; reflexivity|]. cbn. tauto. }
    destruct E as (s & E & I1). exists s. split; [eapply play_exec; [apply exec_0|exact E]|exact I1]. }
  split; [vm_compute; reflexivity|].
  unfold at_, first_moves, uses. cbn [nth by_ pre post].
  split; [vm_compute; reflexivity|]. split; [not_for_child 9|].
  split; [vm_compute; reflexivity|]. split; [not_for 9|].
  split; [vm_compute; reflexivity|]. split; [not_for 9|].
  split; [vm_compute; reflexivity|]. split; [not_for_child 9|].
  split; [vm_compute; reflexivity|].
  exists (EDone 1 7). split; [vm_compute; reflexivity|intros []].
Qed.

(** C80, limits.  The wait for a callback while loading ignores its result
    (libsandbox.cc 944): if it returns without a token, as a system call may when
    it is interrupted, a data race can follow: host and sandbox access
    function_index in adjacent moves, unordered. *)
Definition race_schedule : list (side * bool) :=
  [c; c; h; h; h; (Host, true)] ++ repeat h 5 ++ repeat c 13 ++ repeat h 11 ++ repeat c 4 ++ [h].
Definition race_moves : list move := Eval vm_compute in moves (play false true caller returner race_schedule [] (fresh [3])).
Theorem failed_load_wait_races :
  exists host_do child_do es s m n i,
    exec false true host_do child_do (fresh [3]) es s /\
    nth_error es i = Some m /\ nth_error es (S i) = Some n /\
    uses false true host_do child_do FunctionIndex m /\ uses false true host_do child_do FunctionIndex n /\
    unordered false true host_do child_do es i (S i).
Proof.
  assert (E : exists s, play false true caller returner race_schedule [] (fresh [3]) = Some (race_moves, s)).
  { eexists. vm_compute. reflexivity. }
  destruct E as [s E].
  let m := eval vm_compute in (at_ race_moves 38) in let n := eval vm_compute in (at_ race_moves 39) in
  assert (Em : nth_error race_moves 38 = Some m /\ nth_error race_moves 39 = Some n) by (split; reflexivity);
  exists caller, returner, race_moves, s, m, n, 38%nat.
  destruct Em as [Em En].
  split; [eapply play_exec; [apply exec_0|exact E]|]. split; [exact Em|]. split; [exact En|].
  split; [not_for_child 9|]. split; [not_for 9|].
  eapply next_unordered; [exact Em|exact En|vm_compute; discriminate|].
  intros x. destruct x; vm_compute; intros (? & ? & ?); discriminate.
Qed.
(** C80, limits.  What the program does before its first call returns may run at
    the same time as the loading of the library. *)
Theorem loading_is_concurrent :
  exists host_do child_do es s m n i k a b,
    exec true false host_do child_do (fresh [k]) es s /\
    nth_error es i = Some m /\ nth_error es (S i) = Some n /\
    log (post m) = log (pre m) ++ [ECallback k] /\ log (post n) = log (pre n) ++ [EReq a b] /\
    unordered true false host_do child_do es i (S i).
Proof.
  assert (E : exists es s, play true false caller returner [c; h] [] (fresh [3]) = Some (es, s)).
  { eexists _, _. vm_compute. reflexivity. }
  destruct E as (es & s & E). assert (E' := E). vm_compute in E'. injection E' as Ees _.
  exists caller, returner, es, s, (at_ es 0), (at_ es 1), 0%nat, 3, 1, 7.
  assert (Em : nth_error es 0 = Some (at_ es 0) /\ nth_error es 1 = Some (at_ es 1)) by (subst es; split; reflexivity).
  destruct Em as [Em En].
  split; [eapply play_exec; [apply exec_0|exact E]|]. split; [exact Em|]. split; [exact En|].
  split; [subst es; reflexivity|]. split; [subst es; reflexivity|].
  eapply next_unordered; [exact Em|exact En|subst es; discriminate|].
  intros x. subst es. destruct x; vm_compute; intros (? & ? & ?); discriminate.
Qed.
(** C80, limits.  Two threads of the program that call functions of one library
    race: both are about to write function_index, in either order. *)
Theorem threads_race :
  exists host_do child_do xs s a b,
    mrun true false host_do child_do xs (midle 2 0) = Some s /\
    mrun true false host_do child_do [TH 0 false; TH 1 false] s = Some a /\
    mrun true false host_do child_do [TH 1 false; TH 0 false] s = Some b /\
    findex (m_sh a) <> findex (m_sh b).
Proof.
  set (hd := fun (t : nat) (_ : list event) => HCall (Z.of_nat t) 7). set (cd := fun (_ : nat) (_ : list event) => CReturn).
  exists hd, cd, [TH 0 false; TH 0 false; TH 0 false; TH 1 false; TH 1 false; TH 1 false].
  destruct (mrun true false hd cd [TH 0 false; TH 0 false; TH 0 false; TH 1 false; TH 1 false; TH 1 false] (midle 2 0)) as [s|] eqn:E;
    [|exfalso; vm_compute in E; discriminate E].
  vm_compute in E. injection E as <-.
  eexists _, _, _. split; [reflexivity|]. split; [vm_compute; reflexivity|]. split; [vm_compute; reflexivity|]. vm_compute. discriminate.
Qed.

(** C80. The fields that are atomic have to be: the accesses of the two sides to
    each of them may come together, unordered. *)
Definition quitter (l : list event) : xact := XDo (HReturn 0).
Lemma race_at host_do f l i m n s es :
  play true false host_do returner l [] (fresh (match f with CallbackDepth => [3] | _ => [] end)) = Some (es, s) ->
  nth_error es i = Some m -> nth_error es (S i) = Some n -> by_ m <> by_ n -> (forall c, ~ sends c m) ->
  uses true false host_do returner f m -> uses true false host_do returner f n ->
  exists host_do child_do ks es s i m n,
    exec true false host_do child_do (fresh ks) es s /\ nth_error es i = Some m /\ nth_error es (S i) = Some n /\
    uses true false host_do child_do f m /\ uses true false host_do child_do f n /\
    unordered true false host_do child_do es i (S i).
Proof.
  intros E Em En B N Um Un. exists host_do, returner, (match f with CallbackDepth => [3] | _ => [] end), es, s, i, m, n.
  split; [eapply play_exec; [apply exec_0|exact E]|]. split; [exact Em|]. split; [exact En|]. split; [exact Um|]. split; [exact Un|].
  eapply next_unordered; eauto.
Qed.
Ltac race hd f l i :=
  let r := eval vm_compute in (play true false hd returner l [] (fresh (match f with CallbackDepth => [3] | _ => [] end))) in
  lazymatch r with Some (?es, ?s) =>
    let m := eval vm_compute in (nth i es (Move Host idle idle)) in
    let n := eval vm_compute in (nth (S i) es (Move Host idle idle)) in
    apply (race_at hd f l i m n s es);
      [vm_compute; reflexivity|reflexivity|reflexivity|discriminate
      |let x := fresh in intros x; destruct x; vm_compute; intros (? & ? & ?); discriminate
      |intros N; first [specialize (N 0); cut False; [auto|]; destruct N as [[[] X]|[_ X]]; vm_compute in X; discriminate X
                       |specialize (N 0); cut False; [auto|]; destruct N as [[] X]; vm_compute in X; discriminate X
                       |specialize (N 1); cut False; [auto|]; destruct N as [[[] X]|[_ X]]; vm_compute in X; discriminate X
                       |specialize (N 1); cut False; [auto|]; destruct N as [[] X]; vm_compute in X; discriminate X]
      |intros N; first [specialize (N 0); cut False; [auto|]; destruct N as [[[] X]|[_ X]]; vm_compute in X; discriminate X
                       |specialize (N 0); cut False; [auto|]; destruct N as [[] X]; vm_compute in X; discriminate X
                       |specialize (N 1); cut False; [auto|]; destruct N as [[[] X]|[_ X]]; vm_compute in X; discriminate X
                       |specialize (N 1); cut False; [auto|]; destruct N as [[] X]; vm_compute in X; discriminate X]]
  end.
Theorem atomics_needed f : atomic f = true ->
  exists host_do child_do ks es s i m n,
    exec true false host_do child_do (fresh ks) es s /\ nth_error es i = Some m /\ nth_error es (S i) = Some n /\
    uses true false host_do child_do f m /\ uses true false host_do child_do f n /\
    unordered true false host_do child_do es i (S i).
Proof.
  destruct f; intros A; try discriminate A.
  - race quitter ShouldExit [c; c; c; h; h; c; h] 5%nat.
  - race caller CallbackDepth [h; h; c; c; h] 3%nat.
  - race quitter IsChildExecuting [h; h; h; c; c; h] 4%nat.
  - race caller IsChildLoaded [h; c; c; h; c] 3%nat.
  - race caller ChildSem [c; c; c; c; h; h; h; h; h; h; (Sandbox, true); h] 10%nat.
  - race caller ParentSem [c; c; c; c; h; h; h; h; h; h; h; c; c; c; c; c; c; c; c; (Host, true); c] 19%nat.
Qed.

Print Assumptions no_data_race.
Print Assumptions user_code_ordered.
Print Assumptions loaded_code_ordered.
Print Assumptions failed_load_wait_races.
Print Assumptions loading_is_concurrent.
Print Assumptions threads_race.
Print Assumptions atomics_needed.
Print Assumptions race_hypotheses_met.
