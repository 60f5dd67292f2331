(** The claimed theorems about the socket wrapper (C40) and about what a hostile
    sender can do to the receiver's descriptors (C52). *)
From Coq Require Import List ZArith Bool Lia Arith.
From Verif Require Import SockModel SockSpec.
Import ListNotations.
Open Scope Z_scope.

Lemma to_size_pos n : to_size (Z.of_nat n) = Z.of_nat n.
Proof. unfold to_size. destruct (Z.ltb_spec (Z.of_nat n) 0); lia. Qed.
Lemma to_size_err n : Z.of_nat n < 2 ^ 31 -> (to_size (-1) =? Z.of_nat n) = false.
Proof. intros H. unfold to_size. cbn [Z.ltb Z.compare]. apply Z.eqb_neq. lia. Qed.
Lemma of_nat_eqb a b : (Z.of_nat a =? Z.of_nat b) = Nat.eqb a b.
Proof. destruct (Nat.eqb_spec a b); [subst; apply Z.eqb_refl|apply Z.eqb_neq; lia]. Qed.

(** Interruptions by signals change nothing. *)
Lemma receive_msg_intr block w intr nums buf c t :
  receive_msg block w intr nums buf c t = receive_msg block w 0 nums buf c t.
Proof. induction intr; cbn [receive_msg]; auto. Qed.
Theorem interruptions_invisible block h intr nums buf c t :
  receive block h intr nums buf c t = receive block h 0 nums buf c t.
Proof. unfold receive. rewrite receive_msg_intr. reflexivity. Qed.

Lemma firstn_exact (A : Type) (l : list A) n : length l = n -> firstn n l = l.
Proof. intros <-. apply firstn_all. Qed.
Lemma overlay_exact data buf : length data = length buf -> overlay data buf = data.
Proof. intros H. unfold overlay. rewrite H, skipn_all. apply app_nil_r. Qed.

(** Sending: true exactly when the packet is queued, whole. *)
Lemma send_msg_cases atts data file c c' ok : send_msg atts data file c = (c', ok) -> (0 < length data)%nat -> Z.of_nat (length data) < 2 ^ 31 ->
  (ok = true /\ c' = Chan (queue c ++ [Msg data (match file with Some f => [f] | None => [] end)]) (hung_up c))
  \/ (ok = false /\ c' = c).
Proof.
  intros E P B. induction atts as [|[| |] atts IH]; cbn in E.
  - injection E as <- <-. right. split; auto. apply to_size_err. auto.
  - auto.
  - injection E as <- <-. right. split; auto. apply to_size_err. auto.
  - injection E as <- <-. left. rewrite to_size_pos, Z.eqb_refl. auto.
Qed.

Definition as_msg (a : list Z * option nat) : msg := Msg (fst a) (match snd a with Some f => [f] | None => [] end).

Lemma accepted_app a b : accepted (a ++ b) = accepted a ++ accepted b.
Proof. induction a as [|[[o e] s] a IH]; cbn; auto. destruct o; auto. destruct e as [[]| |]; auto. cbn. rewrite IH. auto. Qed.
Lemma delivered_app a b : delivered (a ++ b) = delivered a ++ delivered b.
Proof.
  induction a as [|[[o e] s] a IH]; cbn; auto. destruct o; auto. destruct e as [|o|]; auto. destruct o as [|[] ? ?]; auto.
  cbn. rewrite IH. auto.
Qed.
Lemma lookup_app n a b : lookup n (a ++ b) = match lookup n a with Some f => Some f | None => lookup n b end.
Proof. induction a as [|[m f] a IH]; cbn; auto. destruct (m =? n); auto. Qed.
Lemma lookup_absent n t : ~ In n (map fst t) -> lookup n t = None.
Proof. induction t as [|[m f] t IH]; cbn; auto. intros H. destruct (Z.eqb_spec m n); [tauto|]. auto. Qed.
Lemma lookup_unopen n o t : n <> o -> lookup n (unopen o t) = lookup n t.
Proof.
  intros N. induction t as [|[m f] t IH]; cbn; auto. destruct (Z.eqb_spec m o) as [->|M]; cbn.
  - destruct (Z.eqb_spec o n); [congruence|auto].
  - rewrite IH. auto.
Qed.
Lemma lookup_neg n t : (forall m f, In (m, f) t -> 0 <= m) -> n < 0 -> lookup n t = None.
Proof.
  intros H N. induction t as [|[m f] t IH]; cbn; auto. pose proof (H m f (or_introl eq_refl)).
  destruct (Z.eqb_spec m n); [lia|]. apply IH. intros ? ? X. eapply H. right. eauto.
Qed.

(** Numbers in the table are never negative. *)
Definition nonneg (t : table) : Prop := forall m f, In (m, f) t -> 0 <= m.
Lemma nonneg_unopen o t : nonneg t -> nonneg (unopen o t).
Proof.
  intros H m f X. assert (Y : In (m, f) t); [|eapply H; eauto]. clear H. induction t as [|[a b] t IH]; cbn in *; auto.
  destruct (a =? o); cbn in *; auto. destruct X; auto.
Qed.
Lemma nonneg_reset o t : nonneg t -> nonneg (reset o t).
Proof. intros H. unfold reset. destruct (0 <=? o); auto using nonneg_unopen. Qed.
Lemma nonneg_fds t nums l : nonneg t -> Forall (fun n => 0 <= n /\ ~ In n (map fst t)) nums -> nonneg (t ++ combine nums l).
Proof.
  intros H F m f X. apply in_app_or in X. destruct X as [X|X]; [eapply H; eauto|].
  apply in_combine_l in X. rewrite Forall_forall in F. apply F in X. tauto.
Qed.
Lemma nonneg_step o s s' e : nonneg (tab s) -> possible o s -> step o s = (s', e) -> nonneg (tab s').
Proof.
  intros N P E. destruct o as [atts data file|m| |block h intr nums buf]; cbn in E.
  - destruct (send_msg atts data file (ch s)). injection E as <- <-. auto.
  - injection E as <- <-. auto.
  - injection E as <- <-. auto.
  - rewrite interruptions_invisible in E. cbn in P. destruct P as [_ P].
    unfold receive, receive_msg, recvmsg in E.
    destruct (queue (ch s)) as [|m r].
    + destruct (hung_up (ch s)); [|destruct block].
      * rewrite app_nil_r in E. destruct h; [destruct (to_size 0 =? Z.of_nat (length buf))|];
          injection E as <- <-; auto; apply nonneg_reset; auto.
      * injection E as <- <-. auto.
      * destruct h; [destruct (to_size (-1) =? Z.of_nat (length buf))|]; injection E as <- <-; auto; apply nonneg_reset; auto.
    + destruct h as [old|].
      * match type of E with context [if ?b then _ else _] => destruct b end; injection E as <- <-; cbn [tab].
        -- apply nonneg_reset. apply nonneg_fds; auto.
        -- apply nonneg_fds; auto.
      * injection E as <- <-. cbn [tab]. rewrite app_nil_r. auto.
Qed.

(** C40. However the two ends interleave, and however often they are interrupted
    or refused, what has been received is exactly what was sent up to there: the
    same messages, whole, in order, each with its own file; the rest is still
    queued. *)
Theorem messages_arrive_intact t k tr s :
  nonneg t -> a_size k -> runs t tr s -> Forall (fun x => fair_use k (fst (fst x))) tr ->
  exists taken rest, accepted tr = taken ++ rest /\ Forall2 same_message taken (delivered tr)
    /\ queue (ch s) = map as_msg rest.
Proof.
  intros N0 [K1 K2] R. assert (NN : nonneg (tab s)).
  { clear K1 K2. induction R as [|tr s o s' e R IH P E]; auto. eapply nonneg_step; eauto. }
  revert NN. induction R as [|tr s o s' e R IH P E]; intros NN F; [exists [], []; cbn; auto|].
  apply Forall_app in F. destruct F as [F Fo]. inversion Fo as [|? ? Fo' _]; subst. cbn in Fo'.
  assert (NN0 : nonneg (tab s)).
  { clear - N0 R. induction R as [|tr s o s' e R IH P E]; auto. eapply nonneg_step; eauto. }
  destruct (IH NN0 F) as (taken & rest & A & B & C). clear IH.
  rewrite accepted_app, delivered_app.
  assert (LEN : Forall (fun a => length (fst a) = k) (accepted tr)).
  { clear -F. induction tr as [|[[o e] s] tr IH]; cbn; auto. inversion F as [|? ? X Y]; subst. cbn in X.
    destruct o; auto. destruct e as [[]| |]; auto. }
  destruct o as [atts data file|m| |block h intr nums buf]; cbn in Fo', E.
  - destruct (send_msg atts data file (ch s)) as [c ok] eqn:S. injection E as <- <-.
    apply send_msg_cases in S; try lia. destruct S as [[-> ->]|[-> ->]]; cbn [accepted delivered ch queue].
    + exists taken, (rest ++ [(data, file)]). rewrite A, C, map_app, app_assoc, app_nil_r. auto.
    + exists taken, rest. rewrite !app_nil_r. auto.
  - contradiction.
  - injection E as <- <-. exists taken, rest. cbn [accepted delivered ch queue]. rewrite !app_nil_r. auto.
  - destruct Fo' as [Lb Nn]. cbn in P. destruct P as [[_ PH] P]. rewrite interruptions_invisible in E.
    assert (NO : forall s2 e2, accepted [(Receive block h intr nums buf, e2, s2)] = []) by reflexivity.
    rewrite NO, app_nil_r. unfold receive, receive_msg, recvmsg in E. rewrite C in E.
    destruct rest as [|[b f] rest].
    + cbn [map] in E. exists taken, [].
      assert (D0 : delivered [(Receive block h intr nums buf, e, s')] = [] /\ queue (ch s') = []).
      { destruct (hung_up (ch s)); [|destruct block].
        - change 0 with (Z.of_nat 0) in E. rewrite to_size_pos, of_nat_eqb in E.
          destruct (Nat.eqb_spec 0 (length buf)); [lia|]. destruct h; injection E as <- <-; cbn [ch]; auto.
        - injection E as <- <-. cbn [ch]. auto.
        - rewrite to_size_err in E by lia. destruct h; injection E as <- <-; cbn [ch]; auto. }
      destruct D0 as [D0 Q]. split; [exact A|]. rewrite D0, app_nil_r, Q. auto.
    + rewrite A in LEN. apply Forall_app in LEN. destruct LEN as [_ LEN]. inversion LEN as [|? ? Lbb _]; subst. cbn in Lbb.
      cbn [map as_msg fst snd bytes files] in E. rewrite (firstn_exact _ b) in E by lia.
      rewrite to_size_pos, of_nat_eqb in E. rewrite Lbb, Nat.eqb_refl in E. rewrite overlay_exact in E by auto.
      exists (taken ++ [(b, f)]), rest. rewrite A, <- app_assoc. split; [reflexivity|].
      destruct nums as [|n0 nums]; [congruence|]. inversion P as [|? ? [P0 P1] _]; subst.
      assert (CN : combine nums (@nil nat) = []) by (destruct nums; auto).
      destruct h as [old|].
      * injection E as <- <-. cbn [delivered ch tab queue]. split; [|reflexivity].
        apply Forall2_app; auto. constructor; [|constructor]. split; cbn [fst snd]; auto.
        destruct f as [f|]; cbn [ctrl_slots firstn combine]; rewrite ?CN.
        -- assert (L0 : lookup n0 (tab s ++ [(n0, f)]) = Some f).
           { rewrite lookup_app, lookup_absent by auto. cbn. rewrite Z.eqb_refl. auto. }
           unfold reset. destruct (Z.leb_spec 0 old); auto.
           destruct (Z.eq_dec n0 old) as [->|NE]; [|rewrite lookup_unopen; auto].
           destruct PH as [PH|PH]; [lia|contradiction].
        -- assert (X : nonneg (reset old (tab s ++ combine (n0 :: nums) (firstn ctrl_slots [])))).
           { apply nonneg_reset. cbn. rewrite app_nil_r. auto. }
           cbn in X. apply lookup_neg; [exact X|lia].
      * injection E as <- <-. cbn [delivered ch tab queue]. split; [|reflexivity].
        apply Forall2_app; auto. constructor; [|constructor]. split; cbn; auto.
Qed.

(** C40. With any sender at all: a receive never changes the size of the caller's
    buffer, takes at most one message, and the only descriptor it hands over is
    one the kernel just made for a file attached to that message. *)
Theorem receive_is_contained block h intr nums buf c t c' t' ok buf' h' :
  receive block h intr nums buf c t = (c', t', ODone ok buf' h') ->
  length buf' = length buf
  /\ (queue c' = queue c \/ exists m, queue c = m :: queue c')
  /\ (forall n, h' = Some n -> h = Some n \/ n = -1
        \/ exists m f, queue c = m :: queue c' /\ In f (files m) /\ In n nums /\ lookup n (combine nums (files m)) = Some f).
Proof.
  rewrite interruptions_invisible. unfold receive, receive_msg, recvmsg. destruct (queue c) as [|m r] eqn:Q.
  - destruct (hung_up c); [|destruct block].
    + destruct h; [destruct (to_size 0 =? Z.of_nat (length buf))|]; intros E; injection E as <- <- <- <- <-;
        (split; [reflexivity|split; [left; auto|]]); intros n N; try discriminate; injection N as <-; auto.
    + discriminate.
    + destruct h; [destruct (to_size (-1) =? Z.of_nat (length buf))|]; intros E; injection E as <- <- <- <- <-;
        (split; [reflexivity|split; [left; auto|]]); intros n N; try discriminate; injection N as <-; auto.
  - assert (LO : length (overlay (firstn (length buf) (bytes m)) buf) = length buf).
    { unfold overlay. rewrite app_length, skipn_length, firstn_length. lia. }
    destruct h as [old|].
    + set (fds := combine nums (firstn ctrl_slots (files m))).
      destruct (to_size (Z.of_nat (length (firstn (length buf) (bytes m)))) =? Z.of_nat (length buf));
        intros E; injection E as <- <- <- <- <-; (split; [exact LO|split; [right; exists m; auto|]]); intros n N; injection N as <-; auto.
      destruct fds as [|[x f] [|]] eqn:Ef; auto. right. right. exists m, f. unfold fds in Ef. clear fds.
      destruct nums as [|n0 nums]; [discriminate|]. destruct (files m) as [|f0 fs]; [discriminate|].
      cbn in Ef. injection Ef as -> -> _. cbn. rewrite Z.eqb_refl. auto.
    + intros E; injection E as <- <- <- <- <-. split; [exact LO|split; [right; exists m; auto|]]. discriminate.
Qed.

(** C40. A message that is too short is refused (and used up) ... *)
Theorem short_message_refused block h intr nums buf m r hu t :
  (length (bytes m) < length buf)%nat ->
  exists c' t' buf', receive block h intr nums buf (Chan (m :: r) hu) t = (c', t', ODone false buf' h) /\ queue c' = r.
Proof.
  intros L. rewrite interruptions_invisible. unfold receive, receive_msg, recvmsg. cbn [queue hung_up].
  rewrite to_size_pos, of_nat_eqb, firstn_length. destruct (Nat.eqb_spec (Nat.min (length buf) (length (bytes m))) (length buf)); [lia|].
  destruct h; do 3 eexists; split; reflexivity.
Qed.
(** ... but one that is too long is accepted, cut to size.  The full statement
    (a size mismatch always fails) is false. *)
Theorem size_mismatch_refused_refuted block intr nums buf m r hu t :
  (length buf < length (bytes m))%nat ->
  exists c' t', receive block None intr nums buf (Chan (m :: r) hu) t = (c', t', ODone true (firstn (length buf) (bytes m)) None).
Proof.
  intros L. rewrite interruptions_invisible. unfold receive, receive_msg, recvmsg. cbn [queue hung_up].
  rewrite to_size_pos, of_nat_eqb, firstn_length. rewrite Nat.min_l by lia. rewrite Nat.eqb_refl.
  rewrite overlay_exact by (rewrite firstn_length; lia). do 2 eexists. reflexivity.
Qed.
(** C40. After the peer hung up and the queue is empty, or with nothing there
    and no wish to block, a receive fails and changes nothing. *)
Theorem nothing_to_receive block h intr nums buf hu t :
  a_size (length buf) -> hu = true \/ block = false ->
  receive block h intr nums buf (Chan [] hu) t = (Chan [] hu, t, ODone false buf h).
Proof.
  intros [A B] H. rewrite interruptions_invisible. unfold receive, receive_msg, recvmsg. cbn [queue hung_up].
  destruct hu.
  - rewrite app_nil_r. change 0 with (Z.of_nat 0). rewrite to_size_pos, of_nat_eqb. destruct (Nat.eqb_spec 0 (length buf)); [lia|].
    destruct h; reflexivity.
  - destruct H as [H|H]; [discriminate|]. subst block. rewrite to_size_err by auto. destruct h; reflexivity.
Qed.
(** C40. In a history in which the peer has hung up no receive waits, and once
    everything that was queued has been taken every receive fails and changes
    nothing.  (Before that, C41 says what is delivered.) *)
Lemma hung_up_iff t tr s : runs t tr s -> (hung_up (ch s) = true <-> In HangUp (map (fun x => fst (fst x)) tr)).
Proof.
  induction 1 as [|tr s o s' e R IH P E]; [cbn; split; [discriminate|intros []]|].
  rewrite map_app, in_app_iff, <- IH. cbn [map fst In].
  assert (X : hung_up (ch s') = true <-> hung_up (ch s) = true \/ o = HangUp).
  { destruct o as [atts data file|m| |block h intr nums buf]; cbn [step] in E.
    - destruct (send_msg atts data file (ch s)) as [c ok] eqn:Q. injection E as <- <-. cbn [ch].
      enough (hung_up c = hung_up (ch s)) as -> by (split; [auto|intros [?|?]; [auto|discriminate]]).
      clear P. revert c ok Q. induction atts as [|a atts IHa]; intros c ok Q; cbn [send_msg] in Q.
      + injection Q as <- <-. reflexivity.
      + destruct a; try (eapply IHa; exact Q); cbn in Q; injection Q as <- <-; reflexivity.
    - injection E as <- <-. cbn. split; [auto|intros [?|?]; [auto|discriminate]].
    - injection E as <- <-. cbn. tauto.
    - destruct (receive block h intr nums buf (ch s) (tab s)) as [[c t1] o1] eqn:Q. injection E as <- <-. cbn [ch].
      enough (hung_up c = hung_up (ch s)) as -> by (split; [auto|intros [?|?]; [auto|discriminate]]).
      rewrite interruptions_invisible in Q. destruct (ch s) as [q hu]. clear -Q.
      unfold receive, receive_msg, recvmsg in Q. cbn [queue hung_up] in Q. destruct q as [|m q].
      + destruct hu; [|destruct block]; (destruct h as [old|]; [repeat match type of Q with context [if ?x then _ else _] => destruct x end|]);
          injection Q as <- <- <-; reflexivity.
      + destruct h as [old|]; [repeat match type of Q with context [if ?x then _ else _] => destruct x end|];
          injection Q as <- <- <-; reflexivity. }
  rewrite X. intuition.
Qed.
Theorem hang_up_is_noticed t tr s block h intr nums buf s' e :
  runs t tr s -> In HangUp (map (fun x => fst (fst x)) tr) -> a_size (length buf) ->
  step (Receive block h intr nums buf) s = (s', e) ->
  e <> Got OBlocks /\
  (queue (ch s) = [] -> s' = s /\ e = Got (ODone false buf h)).
Proof.
  intros R I A E. apply (hung_up_iff _ _ _ R) in I. cbn [step] in E. destruct s as [[q hu] tb]. cbn [ch tab queue hung_up] in *. subst hu.
  split.
  - rewrite interruptions_invisible in E. unfold receive, receive_msg, recvmsg in E. cbn [queue hung_up] in E.
    intros ->. destruct q as [|m q];
      (destruct h as [old|]; [repeat match type of E with context [if ?x then _ else _] => destruct x end|]);
      injection E as _ E; discriminate.
  - intros ->. rewrite nothing_to_receive in E by auto. injection E as <- <-. auto.
Qed.
Print Assumptions hang_up_is_noticed.
(** C40. A send that reports failure has sent nothing. *)
Theorem failed_send_sends_nothing atts data file c c' :
  a_size (length data) -> send_msg atts data file c = (c', false) -> c' = c.
Proof. intros [A B] E. apply send_msg_cases in E; auto. destruct E as [[X _]|[_ X]]; [discriminate|auto]. Qed.

(** ** C52: descriptors a hostile sender leaves behind *)

(** Two files attached to a well-formed request: the receive succeeds with an
    empty Handle, yet both descriptors are now open in the receiver. *)
Theorem two_descriptors_leak intr n1 n2 nums buf b f1 f2 fs r hu t :
  length b = length buf ->
  receive false (Some (-1)) intr (n1 :: n2 :: nums) buf (Chan (Msg b (f1 :: f2 :: fs) :: r) hu) t
  = (Chan r hu, t ++ [(n1, f1); (n2, f2)], ODone true b (Some (-1))).
Proof.
  intros L. rewrite interruptions_invisible. unfold receive, receive_msg, recvmsg. cbn [queue hung_up bytes files].
  rewrite firstn_exact by auto. rewrite to_size_pos, of_nat_eqb, L, Nat.eqb_refl, overlay_exact by auto.
  unfold ctrl_slots. cbn [firstn combine].
  assert (combine nums (@nil nat) = []) as -> by (destruct nums; auto). reflexivity.
Qed.
(** One file attached to a request of the wrong size: the receive fails and the
    descriptor stays open with no owner. *)
Theorem short_message_leaks_descriptor intr n1 nums buf b f1 r hu t :
  (length b < length buf)%nat ->
  exists buf', receive false (Some (-1)) intr (n1 :: nums) buf (Chan (Msg b [f1] :: r) hu) t
  = (Chan r hu, t ++ [(n1, f1)], ODone false buf' (Some (-1))).
Proof.
  intros L. rewrite interruptions_invisible. unfold receive, receive_msg, recvmsg. cbn [queue hung_up bytes files].
  rewrite to_size_pos, of_nat_eqb, firstn_length. destruct (Nat.eqb_spec (Nat.min (length buf) (length b)) (length buf)); [lia|].
  unfold ctrl_slots. cbn [firstn combine].
  assert (combine nums (@nil nat) = []) as -> by (destruct nums; auto). eexists. reflexivity.
Qed.

(** So a sandbox can use up the host's descriptors: for every n there is a
    history of n well-formed requests, each received into a new empty Handle,
    after which the host has 2n more descriptors, whatever it does with those
    Handles. *)
Lemma runs_more t tr s o s' e : runs t tr s -> possible o s -> step o s = (s', e) -> exists tr', runs t tr' s'.
Proof. intros R P E. eexists. eapply runs_snoc; eauto. Qed.
Definition top (t : table) : Z := fold_right Z.max 0 (map fst t).
Lemma top_bound t n : In n (map fst t) -> n <= top t.
Proof. unfold top. induction (map fst t) as [|x l IH]; cbn; [tauto|]. intros [->|H]; [lia|]. apply IH in H. lia. Qed.
Lemma top_nonneg t : 0 <= top t.
Proof. unfold top. induction (map fst t); cbn; lia. Qed.
Theorem sandbox_can_exhaust_descriptors t b n :
  exists tr s, runs t tr s /\ length (tab s) = (length t + 2 * n)%nat /\ queue (ch s) = [] /\ hung_up (ch s) = false
    /\ Forall (fun x => match fst (fst x) with
                        | Inject m => length (bytes m) = length (b : list Z)
                        | Receive block h _ _ buf => block = false /\ h = Some (-1) /\ length buf = length b
                                                    /\ snd (fst x) = Got (ODone true b (Some (-1)))
                        | _ => False end) tr.
Proof.
  induction n as [|n IH].
  - exists [], (init t). split; [constructor|]. cbn. rewrite Nat.add_0_r. auto.
  - destruct IH as (tr & s & R & L & Q & Hu & F).
    set (s1 := St (Chan [Msg b [0%nat; 0%nat]] false) (tab s)).
    assert (R1 : runs t (tr ++ [(Inject (Msg b [0%nat; 0%nat]), Quiet, s1)]) s1).
    { eapply runs_snoc; [exact R|exact I|]. cbn. rewrite Q, Hu. reflexivity. }
    set (nums := [top (tab s) + 1; top (tab s) + 2]).
    set (s2 := St (Chan [] false) (tab s ++ [(top (tab s) + 1, 0%nat); (top (tab s) + 2, 0%nat)])).
    assert (R2 : runs t ((tr ++ [(Inject (Msg b [0%nat; 0%nat]), Quiet, s1)]) ++
                    [(Receive false (Some (-1)) 0 nums b, Got (ODone true b (Some (-1))), s2)]) s2).
    { eapply runs_snoc; [exact R1| |].
      - cbn. pose proof (top_nonneg (tab s)). split; [split; [|lia]|].
        + constructor; [cbn; lia|]. constructor; [cbn; tauto|constructor].
        + constructor; [|constructor; [|constructor]]; (split; [lia|]); intros X; apply top_bound in X; lia.
      - unfold step. unfold s1, nums. cbn [ch tab]. rewrite two_descriptors_leak by auto. reflexivity. }
    exists ((tr ++ [(Inject (Msg b [0%nat; 0%nat]), Quiet, s1)]) ++
                    [(Receive false (Some (-1)) 0 nums b, Got (ODone true b (Some (-1))), s2)]), s2.
    split; [exact R2|]. split; [|split; [reflexivity|split; [reflexivity|]]].
    + unfold s2. cbn [tab]. rewrite app_length, L. cbn. lia.
    + rewrite !Forall_app. split; [split; [exact F|]|]; constructor; cbn; auto.
Qed.

(** A concrete history: two messages, the second with a file, one interruption,
    one refusal; the Handle's old descriptor 7 is closed when it is replaced. *)
Definition ex_tab : table := [(0, 90%nat); (7, 91%nat)].
Example sock_ex :
  exists tr s, runs ex_tab tr s /\ nonneg ex_tab /\ Forall (fun x => fair_use 2 (fst (fst x))) tr
    /\ accepted tr = [([1; 2], None); ([3; 4], Some 5%nat); ([5; 6], None)]
    /\ delivered tr = [([1; 2], None); ([3; 4], Some (Some 5%nat))] /\ tab s = [(0, 90%nat); (3, 5%nat)].
Proof.
  do 2 eexists. split; [|split; [|split; [|split; [|split]]]].
  - eapply (runs_snoc _ [_; _; _; _; _]); [eapply (runs_snoc _ [_; _; _; _]); [eapply (runs_snoc _ [_; _; _]);
      [eapply (runs_snoc _ [_; _]); [eapply (runs_snoc _ [_]); [eapply (runs_snoc _ []); [apply runs_0| |]| |]| |]| |]| |]| |].
    1: exact (I : possible (Send [Interrupted; Accepted] [1; 2] None) (init ex_tab)). 1: reflexivity.
    1: match goal with |- possible _ ?s => exact (I : possible (Send [Accepted] [3; 4] (Some 5%nat)) s) end. 1: reflexivity.
    1: match goal with |- possible _ ?s => exact (I : possible (Send [Refused] [9; 9] None) s) end. 1: reflexivity.
    1: match goal with |- possible _ ?s => exact (I : possible (Send [Accepted] [5; 6] None) s) end. 1: reflexivity.
    1: match goal with |- possible _ ?s => assert (P : possible (Receive false None 3 [3] [0; 0]) s) end; [|exact P].
    { cbn. split; [split; [repeat constructor; cbn; tauto|auto]|]. constructor; [cbn; lia|constructor]. }
    1: reflexivity.
    1: match goal with |- possible _ ?s => assert (P : possible (Receive true (Some 7) 0 [3] [0; 0]) s) end; [|exact P].
    { cbn. split; [split; [repeat constructor; cbn; tauto|auto]|]. constructor; [cbn; lia|constructor]. }
    reflexivity.
  - intros m f [E|[E|[]]]; injection E as <- <-; lia.
  - cbn. repeat (constructor; [cbn; try split; auto; try discriminate|]). constructor.
  - reflexivity.
  - reflexivity.
  - reflexivity.
Qed.

Print Assumptions messages_arrive_intact.
Print Assumptions interruptions_invisible.
Print Assumptions receive_is_contained.
Print Assumptions short_message_refused.
Print Assumptions size_mismatch_refused_refuted.
Print Assumptions nothing_to_receive.
Print Assumptions failed_send_sends_nothing.
Print Assumptions two_descriptors_leak.
Print Assumptions short_message_leaks_descriptor.
Print Assumptions sandbox_can_exhaust_descriptors.

(** [hang_up_is_noticed] applies: a message is sent, the peer hangs up, the
    message is received, and the next, blocking, receive fails. *)
Example hang_up_ex :
  exists tr s, runs [] tr s /\ In HangUp (map (fun x => fst (fst x)) tr) /\ queue (ch s) = [] /\
    snd (step (Receive true None 0 [] [0; 0]) s) = Got (ODone false [0; 0] None).
Proof.
  set (s1 := fst (step (Send [Accepted] [7; 8] None) (init []))).
  set (s2 := fst (step HangUp s1)).
  set (s3 := fst (step (Receive true None 0 [] [0; 0]) s2)).
  exists ((([] ++ [(Send [Accepted] [7; 8] None, snd (step (Send [Accepted] [7; 8] None) (init [])), s1)])
          ++ [(HangUp, snd (step HangUp s1), s2)]) ++ [(Receive true None 0 [] [0; 0], snd (step (Receive true None 0 [] [0; 0]) s2), s3)]), s3.
  split.
  - eapply runs_snoc; [eapply runs_snoc; [eapply runs_snoc; [constructor|exact Logic.I|reflexivity]|exact Logic.I|reflexivity]| |reflexivity].
    cbn. repeat constructor.
  - cbn. auto.
Qed.
