(** The invariant behind the theorems on data races: whose turn it is, and which
    moves of one side the other side is known to come after. *)
From Coq Require Import List ZArith Bool Lia.
From Verif Require Import ProtoModel ThrowModel RaceModel RaceSpec.
Import ListNotations.
Open Scope Z_scope.

Section Proof.
Variable debug : bool.
Variable host_do : list event -> xact.
Variable child_do : list event -> cact.
Variable except : event -> Prop.
Notation can := (can debug false host_do child_do).
Notation uses := (uses debug false host_do child_do).
Notation sends := sends.
Notation receives := (receives debug false host_do child_do).
Notation hb := (hb debug false host_do child_do).
Definition U (m : move) : Prop := (exists p, atomic p = false /\ uses p m) \/ acts except m.

(** ** Lists of moves *)
Lemma nth_snoc {A} (l : list A) x i y :
  nth_error (l ++ [x]) i = Some y -> (i < length l)%nat /\ nth_error l i = Some y \/ i = length l /\ x = y.
Proof.
  intros E. destruct (PeanoNat.Nat.lt_trichotomy i (length l)) as [L|[->|L]].
  - left. split; [exact L|]. now rewrite nth_error_app1 in E.
  - right. split; [reflexivity|]. rewrite nth_error_app2, PeanoNat.Nat.sub_diag in E by lia. cbn in E. congruence.
  - exfalso. enough (nth_error (l ++ [x]) i = None) by congruence. apply nth_error_None. rewrite app_length. cbn. lia.
Qed.
Lemma nth_old {A} (l : list A) x i y : nth_error l i = Some y -> nth_error (l ++ [x]) i = Some y.
Proof. intros E. rewrite nth_error_app1; [exact E|]. apply nth_error_Some. congruence. Qed.
Lemma nth_new {A} (l : list A) x : nth_error (l ++ [x]) (length l) = Some x.
Proof. now rewrite nth_error_app2, PeanoNat.Nat.sub_diag by lia. Qed.
Lemma nth_lt {A} (l : list A) i y : nth_error l i = Some y -> (i < length l)%nat.
Proof. intros E. apply nth_error_Some. congruence. Qed.

Lemma hb_snoc es m i j : hb es i j -> hb (es ++ [m]) i j.
Proof.
  induction 1 as [i j a b L A B S|c i j a b L A B S R Sy N|i j k H1 IH1 H2 IH2].
  - eapply hb_same; eauto using nth_old.
  - eapply hb_sync; eauto using nth_old. intros k x Lk E. apply (N k x Lk).
    apply nth_snoc in E as [[_ E]|[E _]]; [exact E|]. apply nth_lt in B. lia.
  - eapply hb_trans; eauto.
Qed.

Definition reaches (w : side) (es : list move) (i : nat) : Prop :=
  exists j n, nth_error es j = Some n /\ by_ n = w /\ hb es i j.
Definition known (w : side) (es : list move) : Prop :=
  forall i m, nth_error es i = Some m -> by_ m <> w -> U m -> reaches w es i.
Definition sender (c : channel) : side := match c with ToSandbox => Host | _ => Sandbox end.
Definition other (w : side) : side := match w with Host => Sandbox | Sandbox => Host end.
Definition sent (c : channel) (es : list move) : Prop :=
  exists k m, nth_error es k = Some m /\ sends c m /\
    (forall l y, (k < l)%nat -> nth_error es l = Some y -> ~ sends c y) /\
    forall i n, nth_error es i = Some n -> by_ n = sender c -> U n -> (i <= k)%nat \/ reaches (other (sender c)) es i.

Lemma reaches_snoc w es m i : reaches w es i -> reaches w (es ++ [m]) i.
Proof. intros (j & n & E & B & H). exists j, n. auto using nth_old, hb_snoc. Qed.
Lemma known_snoc w es m : known w es -> by_ m = w \/ ~ U m -> known w (es ++ [m]).
Proof.
  intros K Q i n E B Un. apply nth_snoc in E as [[_ E]|[-> <-]]; [apply reaches_snoc; eapply K; eauto|].
  destruct Q; contradiction.
Qed.
Lemma sends_by c m : sends c m -> by_ m = sender c.
Proof. destruct c; cbn; tauto. Qed.
Lemma receives_by c m : receives c m -> by_ m = other (sender c).
Proof. destruct c; cbn; tauto. Qed.
Lemma sent_now c es m : sends c m -> sent c (es ++ [m]).
Proof.
  intros S. exists (length es), m. split; [apply nth_new|]. split; [exact S|]. split.
  - intros l y L E. apply nth_lt in E. rewrite app_length in E. cbn in E. lia.
  - intros i n E _ _. left. apply nth_lt in E. rewrite app_length in E. cbn in E. lia.
Qed.
Lemma sent_snoc c es m : sent c es -> by_ m <> sender c \/ ~ U m -> ~ sends c m -> sent c (es ++ [m]).
Proof.
  intros (k & a & E & S & N & H) Q Ns. exists k, a. split; [now apply nth_old|]. split; [exact S|]. split.
  - intros l y L E'. apply nth_snoc in E' as [[_ E']|[_ <-]]; [eapply N; eauto|exact Ns].
  - intros i n E' B Un. apply nth_snoc in E' as [[_ E']|[-> <-]]; [|destruct Q; contradiction].
    destruct (H _ _ E' B Un) as [L|R]; [now left|right; now apply reaches_snoc].
Qed.
Lemma sent_other c es m : sent c es -> by_ m <> sender c -> sent c (es ++ [m]).
Proof. intros S B. apply sent_snoc; [exact S|now left|]. intros X. now apply sends_by in X. Qed.
Lemma received c es m : sent c es -> receives c m -> known (by_ m) (es ++ [m]).
Proof.
  intros (k & a & E & S & N & H) R i n E' B Un.
  assert (Bm := receives_by _ _ R). assert (Ba := sends_by _ _ S).
  assert (Hk : hb (es ++ [m]) k (length es)).
  { eapply hb_sync; [|apply nth_old, E|apply nth_new|exact S|exact R|destruct c; cbn; auto|]; [now apply nth_lt in E|].
    intros l x [L1 L2] Ex. apply nth_snoc in Ex as [[_ Ex]|[-> _]]; [|lia]. eapply N; eauto. }
  assert (Rk : forall i', (i' <= k)%nat -> by_ n = by_ a -> nth_error (es ++ [m]) i' = Some n -> reaches (by_ m) (es ++ [m]) i').
  { intros i' Li Bn Ei. exists (length es), m. split; [apply nth_new|]. split; [reflexivity|].
    destruct (PeanoNat.Nat.eq_dec i' k) as [->|D]; [exact Hk|]. eapply hb_trans; [|exact Hk].
    eapply hb_same; [|exact Ei|apply nth_old, E|exact Bn]. lia. }
  assert (Bn : by_ n = sender c). { rewrite Bm in B. destruct (by_ n), c; cbn in *; congruence. }
  apply nth_snoc in E' as [[L E']|[-> <-]]; [|contradiction].
  destruct (H _ _ E' Bn Un) as [Li|Re]; [apply Rk; [exact Li|congruence|now apply nth_old]|].
  rewrite Bm. now apply reaches_snoc.
Qed.

(** ** Which moves use something *)
Lemma plain_commutes hd p v fail s : atomic p = false -> (forall i b d, hpc s <> HIdx i b d /\ hpc s <> HBuf i b d) ->
  host_step debug false hd fail (poke p v s) = option_map (poke p v) (host_step debug false hd fail s).
Proof.
  intros At N. destruct s as [[dp fi mb cf pf ex se ld] h hs c cs rq rp lg]. cbn [hpc] in N. unfold host_step.
  destruct h; try (destruct (N i b d); congruence); clear N;
    destruct p; try discriminate At; cbn;
    repeat (match goal with
      | |- context [match hd lg with _ => _ end] => destruct (hd lg)
      | |- context [match hs with _ => _ end] => destruct hs
      | |- context [match rq with _ => _ end] => destruct rq
      | |- context [match ?f with FLoad _ _ _ => _ | FSend _ _ _ _ => _ end] => destruct f
      | |- context [if ?b then _ else _] => destruct b
      | |- context [match wake ?x with _ => _ end] => destruct (wake x)
      | |- context [match wait ?x with _ => _ end] => destruct (wait x)
      end; cbn); try reflexivity.
Qed.
Lemma host_commutes p v fail s : atomic p = false -> (forall i b d, hpc s <> HIdx i b d /\ hpc s <> HBuf i b d) ->
  xhost_step debug false host_do fail (poke p v s) = option_map (poke p v) (xhost_step debug false host_do fail s).
Proof.
  intros At N. pose proof (plain_commutes (plain host_do) p v fail s At N) as C.
  unfold xhost_step. cbn [poke hpc hstk log]. destruct (hpc s); try exact C.
  destruct (host_do (log s)) as [|caught]; [exact C|]. destruct (hstk s) as [|f st]; [exact C|reflexivity].
Qed.
Lemma child_commutes p v fail s : atomic p = false -> (forall d i b, cpc s <> CIdx d /\ cpc s <> CBuf d i /\ cpc s <> CNull d i b) ->
  child_step debug child_do fail (poke p v s) = option_map (poke p v) (child_step debug child_do fail s).
Proof.
  intros At N. destruct s as [[dp fi mb cf pf ex se ld] h hs c cs rq rp lg]. cbn [cpc] in N.
  destruct c; try (destruct (N d 0 0) as (? & ? & ?); congruence); try (destruct (N d i 0) as (? & ? & ?); congruence);
    try (destruct (N d i b) as (? & ? & ?); congruence);
    unfold child_step; destruct p; try discriminate At; cbn;
    repeat (match goal with
      | |- context [match cs with _ => _ end] => destruct cs
      | |- context [match rp with _ => _ end] => destruct rp
      | |- context [match child_do lg with _ => _ end] => destruct (child_do lg)
      | |- context [match ?f with KRun _ _ _ => _ | KCb _ => _ | KLoad _ => _ end] => destruct f
      | |- context [match ?l with [] => _ | _ :: _ => _ end] => destruct l
      | |- context [if ?b then _ else _] => destruct b
      | |- context [match wake ?x with _ => _ end] => destruct (wake x)
      | |- context [match wait ?x with _ => _ end] => destruct (wait x)
      end; cbn); try reflexivity.
Qed.

Lemma not_acts m : log (post m) = log (pre m) -> ~ acts except m.
Proof. intros E (e & X & _). rewrite E in X. apply (f_equal (@length _)) in X. rewrite app_length in X. cbn in X. lia. Qed.

Definition parked (c : cstate) : Prop := match c with CChk _ | CWait _ => True | _ => False end.
Lemma child_quiet s s' : parked (cpc s) -> can Sandbox s s' -> ~ U (Move Sandbox s s').
Proof.
  intros P C [(p & At & Us)|A].
  - apply Us. intros v. cbn [by_ pre post] in *. destruct C as [[fail E]|[G ->]].
    + left. exists fail. rewrite child_commutes, E; [reflexivity|exact At|]. intros d i b. destruct (cpc s); repeat split; (congruence || contradiction).
    + right. split; [now destruct p|now destruct p].
  - revert A. apply not_acts. cbn. destruct C as [[fail E]|[G ->]]; [|reflexivity].
    unfold child_step in E. destruct (cpc s); try contradiction.
    + destruct (should_exit (sh s)); injection E as <-; reflexivity.
    + destruct (wait (cflag (sh s))); [injection E as <-; reflexivity|]. destruct fail; [injection E as <-; reflexivity|discriminate].
Qed.
(** A move of the host that is none of user code. *)
Definition silent (s : conf) : Prop :=
  match hpc s with
  | HIdx _ _ _ | HBuf _ _ _ | HUser | HLHandle _ _ | HHandle _ _ _ | HCheck _ _ _ => False
  | HPoll _ _ _ => gone (cpc s) = false
  | _ => True
  end.
Lemma host_quiet s s' : silent s -> can Host s s' -> ~ U (Move Host s s').
Proof.
  intros P [fail E] [(p & At & Us)|A].
  - apply Us. intros v. cbn [by_ pre post] in *. exists fail. rewrite host_commutes, E; [reflexivity|exact At|].
    intros i b d. unfold silent in P. destruct (hpc s); split; (congruence || contradiction).
  - revert A. apply not_acts. cbn. unfold silent in P.
    unfold xhost_step, host_step in E. destruct (hpc s); try contradiction;
    try rewrite P in E;
    repeat match type of E with
      | context [if ?b then _ else _] => destruct b
      | context [match wake ?x with _ => _ end] => destruct (wake x)
      | context [match wait ?x with _ => _ end] => destruct (wait x)
      end; try discriminate E; try (injection E as <-; reflexivity).
Qed.
Lemma host_start_quiet s s' : (forall e, host_starts e -> except e) -> hpc s = HUser -> hstk s = [] ->
  can Host s s' -> ~ U (Move Host s s').
Proof.
  intros X H1 H2 [fail E] [(p & At & Us)|(e & A & Ne)].
  - apply Us. intros v. cbn [by_ pre post] in *. exists fail. rewrite host_commutes, E; [reflexivity|exact At|].
    intros i b d. rewrite H1. split; discriminate.
  - cbn in A. unfold xhost_step, host_step in E. rewrite H1, H2 in E.
    assert (host_starts e); [|now apply Ne, X].
    destruct (host_do (log s)) as [a|c]; destruct (plain host_do (log s)) in E; injection E as <-; cbn in A;
      apply app_inv_head in A; injection A as <-; exact I.
Qed.

(** ** Whose turn it is *)
Definition running (c : cstate) : Prop := ~ parked c /\ gone c = false.
Definition waiting (s : conf) : Prop :=
  match hpc s with HWait _ _ _ | HPoll _ _ _ => True | _ => False end /\ loaded (sh s) = true /\
  Forall (fun f => match f with FSend _ _ _ _ => True | _ => False end) (hstk s).
Definition entry (s : conf) : Prop :=
  match hpc s with HUser | HLoop _ _ | HDepth _ _ | HLWait _ _ => True | _ => False end /\ hstk s = [].
Definition away (s : conf) : Prop := waiting s \/ entry s /\ loaded (sh s) = false.
Definition active (s : conf) : Prop :=
  match hpc s with
  | HUser | HLoop _ _ | HDepth _ _ | HLWait _ _ =>
    loaded (sh s) = true /\ Forall (fun f => match f with FSend _ _ _ _ => True | _ => False end) (hstk s) \/
    loaded (sh s) = false /\ (hstk s = [] \/ exists i b k, hstk s = [FLoad i b k])
  | HLHandle _ _ | HLDec _ _ | HLExec _ _ | HLWake _ _ => loaded (sh s) = false /\ hstk s = []
  | HSnap _ _ | HIdx _ _ _ | HBuf _ _ _ | HExec _ _ _ | HWake _ _ _
  | HCheck _ _ _ | HHandle _ _ _ | HDec _ _ _ | HExec2 _ _ _ | HWake2 _ _ _ =>
    loaded (sh s) = true /\ Forall (fun f => match f with FSend _ _ _ _ => True | _ => False end) (hstk s)
  | _ => False
  end.
Definition quitting (s : conf) : Prop :=
  match hpc s with HQuit1 | HQuit2 | HQuit3 | HQuit4 | HQuit5 | HEnd | HAborted => True | _ => False end.

Inductive turn (es : list move) (s : conf) : Prop :=
| t_host : parked (cpc s) -> cflag (sh s) = 0 -> pflag (sh s) = 0 -> active s -> known Host es -> turn es s
| t_to_sandbox : parked (cpc s) -> cflag (sh s) = 1 -> pflag (sh s) = 0 -> away s -> known Host es -> sent ToSandbox es -> turn es s
| t_sandbox : running (cpc s) -> cflag (sh s) = 0 -> pflag (sh s) = 0 -> away s -> known Sandbox es -> turn es s
| t_to_host : parked (cpc s) -> cflag (sh s) = 0 -> pflag (sh s) = 1 -> away s -> known Sandbox es -> sent ToHost es -> turn es s
| t_ready : parked (cpc s) -> cflag (sh s) = 0 -> pflag (sh s) = 0 -> entry s -> loaded (sh s) = true ->
    (forall e, host_starts e -> except e) -> known Sandbox es -> sent Ready es -> turn es s
| t_lost : gone (cpc s) = true -> pflag (sh s) = 0 -> away s -> sent Exit es -> turn es s
| t_lost_to_host : gone (cpc s) = true -> pflag (sh s) = 1 -> away s -> sent ToHost es -> sent Exit es -> turn es s
| t_lost_ready : gone (cpc s) = true -> pflag (sh s) = 0 -> entry s ->
    loaded (sh s) = true /\ (forall e, host_starts e -> except e) -> sent Ready es -> turn es s
| t_told : gone (cpc s) = true -> known Host es -> turn es s
| t_quit : quitting s -> (known Sandbox es \/ gone (cpc s) = true \/ parked (cpc s) /\ cflag (sh s) = 0 \/
    parked (cpc s) /\ cflag (sh s) = 1 /\ sent ToSandbox es) -> turn es s.
Fixpoint loads (cs : list cframe) : nat :=
  match cs with [] => 0 | KLoad _ :: r => S (loads r) | _ :: r => loads r end.
Definition stack_ok (s : conf) : Prop :=
  (loads (cstk s) <= 1)%nat /\
  (cpc s = CFin1 \/ cpc s = CFin2 -> loads (cstk s) = 0%nat) /\
  (loaded (sh s) = true -> loads (cstk s) = 0%nat /\ cpc s <> CFin1 /\ cpc s <> CFin2).
Definition mode (s : conf) : Prop := loaded (sh s) = true \/ forall e, host_starts e -> except e.

Lemma child_stack s s' : stack_ok s -> can Sandbox s s' -> stack_ok s' /\ (mode s -> mode s').
Proof.
  intros S C. destruct C as [[fail E]|[G ->]].
  2: { split; [|auto]. destruct S as (A & B & D). split; [exact A|]. split; [intros [X|X]; discriminate|].
       intros L. destruct (D L) as (? & _). repeat split; (assumption || discriminate). }
  destruct s as [[dp fi mb cf pf ex se ld] h hs c cs rq rp lg]. unfold child_step, stack_ok, mode in *. cbn in *.
  destruct S as (S1 & S2 & S3).
  destruct c; cbn in E;
    repeat match type of E with
      | context [match cs with _ => _ end] => destruct cs
      | context [match rp with _ => _ end] => destruct rp
      | context [match child_do lg with _ => _ end] => destruct (child_do lg)
      | context [match ?f with KRun _ _ _ => _ | KCb _ => _ | KLoad _ => _ end] => destruct f
      | context [match ?l with [] => _ | _ :: _ => _ end] => destruct l
      | context [if ?b then _ else _] => destruct b
      | context [match wake ?x with _ => _ end] => destruct (wake x)
      | context [match wait ?x with _ => _ end] => destruct (wait x)
      end; try discriminate E; injection E as <-; cbn in *; (split; [|auto; try (now left)]);
    (split; [lia|]);
    (split; [intros [X|X]; try discriminate X; try lia; try (apply S2; auto)
            |intros L; try (destruct (S3 L) as (S4 & S5 & S6)); try (destruct (S3 eq_refl) as (S4 & S5 & S6));
             repeat split; try discriminate; try lia; try (apply S2; auto); try congruence]).
Qed.
Lemma host_frame s s' : can Host s s' -> cpc s' = cpc s /\ cstk s' = cstk s /\ loaded (sh s') = loaded (sh s).
Proof.
  intros [fail E]. destruct s as [[dp fi mb cf pf ex se ld] h hs c cs rq rp lg]. unfold xhost_step, host_step in E. cbn in E.
  destruct h; cbn in E;
    repeat (match type of E with
      | context [match host_do lg with _ => _ end] => destruct (host_do lg)
      | context [match plain host_do lg with _ => _ end] => destruct (plain host_do lg)
      | context [match hs with _ => _ end] => destruct hs
      | context [match rq with _ => _ end] => destruct rq
      | context [match ?f with FLoad _ _ _ => _ | FSend _ _ _ _ => _ end] => destruct f
      | context [if ?b then _ else _] => destruct b
      | context [match wake ?x with _ => _ end] => destruct (wake x)
      | context [match wait ?x with _ => _ end] => destruct (wait x)
      end; cbn in E); try discriminate E; injection E as <-; auto.
Qed.
Lemma host_stack s s' : stack_ok s -> can Host s s' -> stack_ok s' /\ (mode s -> mode s').
Proof. intros S C. destruct (host_frame _ _ C) as (A & B & D). unfold stack_ok, mode in *. rewrite A, B, D. auto. Qed.

(** ** Moves of the sandbox *)
Lemma parked_moves s s' : parked (cpc s) -> can Sandbox s s' ->
  hpc s' = hpc s /\ hstk s' = hstk s /\ pflag (sh s') = pflag (sh s) /\ loaded (sh s') = loaded (sh s) /\
  (parked (cpc s') /\ cflag (sh s') = cflag (sh s) \/
   gone (cpc s') = true /\ cflag (sh s') = cflag (sh s) \/
   running (cpc s') /\ 0 < cflag (sh s) /\ cflag (sh s') = cflag (sh s) - 1).
Proof.
  intros P C. destruct C as [[fail E]|[G ->]]; [|cbn; repeat split; auto].
  destruct s as [[dp fi mb cf pf ex se ld] h hs c cs rq rp lg]. unfold child_step, wait in E. cbn in *.
  destruct c; try contradiction; cbn in E.
  - destruct se; injection E as <-; cbn; repeat split; auto.
  - destruct (Z.ltb_spec 0 cf) as [L|L]; [injection E as <-; cbn; repeat split; auto; right; right; unfold running; cbn; repeat split; auto|].
    destruct fail; [injection E as <-; cbn; repeat split; auto|discriminate].
Qed.
Lemma running_moves s s' : running (cpc s) -> pflag (sh s) = 0 -> can Sandbox s s' ->
  hpc s' = hpc s /\ hstk s' = hstk s /\ cflag (sh s') = cflag (sh s) /\
  (running (cpc s') /\ pflag (sh s') = 0 /\ loaded (sh s') = loaded (sh s) \/
   gone (cpc s') = true /\ pflag (sh s') = 0 /\ loaded (sh s') = loaded (sh s) \/
   parked (cpc s') /\ pflag (sh s') = 1 /\ loaded (sh s') = loaded (sh s) \/
   parked (cpc s') /\ pflag (sh s') = 0 /\ loaded (sh s') = true /\ cpc s = CFin2).
Proof.
  intros P F C. destruct C as [[fail E]|[G ->]]; [|cbn; repeat split; auto 6].
  destruct s as [[dp fi mb cf pf ex se ld] h hs c cs rq rp lg]. unfold child_step in E. cbn in *. destruct P as [P G]. subst pf.
  unfold running.
  destruct c; cbn in E; try (now destruct P); try discriminate G;
    repeat match type of E with
      | context [match cs with _ => _ end] => destruct cs
      | context [match rp with _ => _ end] => destruct rp
      | context [match child_do lg with _ => _ end] => destruct (child_do lg)
      | context [match ?f with KRun _ _ _ => _ | KCb _ => _ | KLoad _ => _ end] => destruct f
      | context [match ?l with [] => _ | _ :: _ => _ end] => destruct l
      | context [if ?b then _ else _] => destruct b
      end; try discriminate E; injection E as <-; cbn; repeat split; auto 9.
Qed.
Lemma gone_stuck s s' : gone (cpc s) = true -> ~ can Sandbox s s'.
Proof.
  intros G [[fail E]|[X _]]; [|congruence]. unfold child_step in E. destruct (cpc s); discriminate.
Qed.
Lemma active_same s s' : hpc s' = hpc s -> hstk s' = hstk s -> loaded (sh s') = loaded (sh s) -> active s -> active s'.
Proof. unfold active. intros -> -> ->. auto. Qed.
Lemma away_same s s' : hpc s' = hpc s -> hstk s' = hstk s -> loaded (sh s') = loaded (sh s) -> away s -> away s'.
Proof. unfold away, waiting, entry. intros -> -> ->. auto. Qed.
Lemma entry_same s s' : hpc s' = hpc s -> hstk s' = hstk s -> entry s -> entry s'.
Proof. unfold entry. intros -> ->. auto. Qed.
Lemma parked_gone c : parked c -> gone c = false.
Proof. destruct c; cbn; tauto. Qed.

Lemma turn_child es s s' : turn es s -> stack_ok s -> mode s -> can Sandbox s s' -> turn (es ++ [Move Sandbox s s']) s'.
Proof.
  intros T So M C.
  assert (Q : parked (cpc s) -> ~ U (Move Sandbox s s')) by (intros P; now apply child_quiet).
  destruct T as [P F1 F2 A K|P F1 F2 A K S|P F1 F2 A K|P F1 F2 A K S|P F1 F2 A L X K S|G F A S|G F A S S'|G F A L S|G K|Qt D];
    try (now apply (gone_stuck _ _ G) in C).
  - destruct (parked_moves _ _ P C) as (E1 & E2 & E3 & E4 & [[P' E]|[[G E]|[R [E _]]]]); [| |lia].
    + apply t_host; [exact P'|congruence|congruence|eapply active_same; eauto|apply known_snoc; auto].
    + apply t_told; [exact G|apply known_snoc; auto].
  - destruct (parked_moves _ _ P C) as (E1 & E2 & E3 & E4 & [[P' E]|[[G E]|[R [_ E]]]]).
    + apply t_to_sandbox; [exact P'|congruence|congruence|eapply away_same; eauto|apply known_snoc; auto|apply sent_other; [exact S|discriminate]].
    + apply t_told; [exact G|apply known_snoc; auto].
    + apply t_sandbox; [exact R|lia|congruence|eapply away_same; eauto|].
      apply (received ToSandbox); [exact S|]. cbn. repeat split; [exact F1|lia].
  - destruct (running_moves _ _ P F2 C) as (E1 & E2 & E3 & [(R & E4 & E5)|[(G & E4 & E5)|[(P' & E4 & E5)|(P' & E4 & E5 & E6)]]]).
    + apply t_sandbox; [exact R|congruence|exact E4|eapply away_same; eauto|apply known_snoc; auto].
    + apply t_lost; [exact G|exact E4|eapply away_same; eauto|]. apply sent_now. cbn. destruct P. auto.
    + apply t_to_host; [exact P'|congruence|exact E4|eapply away_same; eauto|apply known_snoc; auto|]. apply sent_now. cbn. auto.
    + destruct So as (_ & _ & S3). destruct A as [(_ & L & _)|[A L]]; [now destruct (S3 L) as (_ & _ & X)|].
      destruct M as [M|M]; [congruence|].
      apply t_ready; [exact P'|congruence|exact E4|eapply entry_same; eauto|exact E5|exact M|apply known_snoc; auto|].
      apply sent_now. cbn. auto.
  - destruct (parked_moves _ _ P C) as (E1 & E2 & E3 & E4 & [[P' E]|[[G E]|[R [E _]]]]); [| |lia].
    + apply t_to_host; [exact P'|congruence|congruence|eapply away_same; eauto|apply known_snoc; auto|].
      apply sent_snoc; [exact S|auto|]. cbn. intros (_ & X & _). congruence.
    + apply t_lost_to_host; [exact G|congruence|eapply away_same; eauto| |].
      * apply sent_snoc; [exact S|auto|]. cbn. intros (_ & X & _). congruence.
      * apply sent_now. cbn. auto using parked_gone.
  - destruct (parked_moves _ _ P C) as (E1 & E2 & E3 & E4 & [[P' E]|[[G E]|[R [E _]]]]); [| |lia].
    + apply t_ready; [exact P'|congruence|congruence|eapply entry_same; eauto|congruence|exact X|apply known_snoc; auto|].
      apply sent_snoc; [exact S|auto|]. cbn. intros (_ & Y & _). congruence.
    + apply t_lost_ready; [exact G|congruence|eapply entry_same; eauto|split; [congruence|exact X]|].
      apply sent_snoc; [exact S|auto|]. cbn. intros (_ & Y & _). congruence.
  - assert (Hq : hpc s' = hpc s). { destruct C as [[fail E]|[_ ->]]; [|reflexivity]. revert E. clear.
      destruct s as [[dp fi mb cf pf ex se ld] h hs c cs rq rp lg]. unfold child_step. cbn. intros E.
      destruct c; cbn in E;
      repeat match type of E with
      | context [match cs with _ => _ end] => destruct cs
      | context [match rp with _ => _ end] => destruct rp
      | context [match child_do lg with _ => _ end] => destruct (child_do lg)
      | context [match ?f with KRun _ _ _ => _ | KCb _ => _ | KLoad _ => _ end] => destruct f
      | context [match ?l with [] => _ | _ :: _ => _ end] => destruct l
      | context [if ?b then _ else _] => destruct b
      | context [match wake ?x with _ => _ end] => destruct (wake x)
      | context [match wait ?x with _ => _ end] => destruct (wait x)
      end; try discriminate E; injection E as <-; reflexivity. }
    apply t_quit; [unfold quitting; now rewrite Hq|].
    destruct D as [K|[G|[[P F]|(P & F & S)]]].
    + left. apply known_snoc; auto.
    + now apply (gone_stuck _ _ G) in C.
    + destruct (parked_moves _ _ P C) as (E1 & E2 & E3 & E4 & [[P' E]|[[G E]|[R [E _]]]]); [| |lia].
      * right; right; left. split; [exact P'|congruence].
      * now right; left.
    + destruct (parked_moves _ _ P C) as (E1 & E2 & E3 & E4 & [[P' E]|[[G E]|[R [_ E]]]]).
      * right; right; right. split; [exact P'|]. split; [congruence|]. apply sent_other; [exact S|discriminate].
      * now right; left.
      * left. apply (received ToSandbox); [exact S|]. cbn. repeat split; [exact F|lia].
Qed.

(** ** Moves of the host *)
Ltac host_cases E hs rq lg :=
  repeat (match type of E with
      | context [match host_do lg with _ => _ end] => destruct (host_do lg)
      | context [match plain host_do lg with _ => _ end] => destruct (plain host_do lg)
      | context [match hs with _ => _ end] => destruct hs
      | context [match rq with _ => _ end] => destruct rq
      | context [match ?f with FLoad _ _ _ => _ | FSend _ _ _ _ => _ end] => destruct f
      | context [_ && false] => rewrite andb_false_r in E
      | context [if ?b then _ else _] => destruct b eqn:?
      end; cbn in E); try discriminate E; try (injection E as <-).
Ltac fin_move := first [reflexivity | exact I | assumption | apply Forall_nil | apply Forall_cons; [(exact I || assumption)|assumption] |
  split; fin_move | left; fin_move | right; fin_move | do 3 eexists; reflexivity].
Ltac finish_move := first [left; split; [fin_move|reflexivity] | right; left; split; [fin_move|reflexivity] | right; right; split; [exact I|reflexivity]].
Lemma active_moves s s' : active s -> parked (cpc s) -> cflag (sh s) = 0 -> pflag (sh s) = 0 -> can Host s s' ->
  pflag (sh s') = 0 /\
  (active s' /\ cflag (sh s') = 0 \/ away s' /\ cflag (sh s') = 1 \/ quitting s' /\ cflag (sh s') = 0).
Proof.
  intros A P F1 F2 [fail E]. destruct s as [[dp fi mb cf pf ex se ld] h hs c cs rq rp lg]. cbn in *. subst cf pf.
  unfold xhost_step, host_step in E. cbn in E. unfold active, away, waiting, entry, quitting in *. cbn in A.
  destruct h; cbn in E, A; try contradiction; host_cases E hs rq lg; cbn;
    repeat match goal with
    | H : _ /\ _ |- _ => destruct H
    | H : _ \/ _ |- _ => destruct H
    | H : exists _, _ |- _ => destruct H
    | H : Forall _ (_ :: _) |- _ => inversion H; subst; clear H
    end; subst; try discriminate; try contradiction; try congruence;
    repeat match goal with H : _ :: _ = _ :: _ |- _ => injection H; clear H; intros; subst end;
    (split; [reflexivity|]); finish_move.
Qed.

Lemma away_moves s s' : away s -> can Host s s' ->
  cflag (sh s') = cflag (sh s) /\
  (away s' /\ pflag (sh s') = pflag (sh s) /\ (silent s \/ hpc s = HUser /\ hstk s = [] /\ loaded (sh s) = false) \/
   quitting s' /\ pflag (sh s') = pflag (sh s) /\ hpc s = HUser /\ hstk s = [] /\ loaded (sh s) = false \/
   active s' /\ 0 < pflag (sh s) /\ pflag (sh s') = pflag (sh s) - 1 \/
   gone (cpc s) = true /\ receives Exit (Move Host s s')).
Proof.
  intros A C. destruct C as [fail E]. assert (C : can Host s s') by now exists fail.
  destruct s as [[dp fi mb cf pf ex se ld] h hs c cs rq rp lg]. cbn in *.
  assert (Hp : forall i b d, h = HPoll i b d -> gone c = true -> receives Exit (Move Host (Conf (Shared dp fi mb cf pf ex se ld) h hs c cs rq rp lg) s')).
  { intros i b d -> G. cbn. split; [reflexivity|]. split; [exact G|]. intros p Gp [f' E']. unfold xhost_step, host_step in E, E'. cbn in E, E'.
    rewrite G in E. rewrite Gp in E'. injection E as <-. discriminate E'. }
  unfold away, waiting, entry, quitting, active, silent in *. cbn in *.
  destruct A as [(A & -> & B)|[[A ->] ->]]; destruct h; try contradiction; unfold xhost_step, host_step, wait in E; cbn in E.
  - destruct (Z.ltb_spec 0 pf) as [L|L]; [injection E as <-; cbn; split; [reflexivity|right; right; left; repeat split; auto]|].
    destruct fail; [injection E as <-; cbn; split; [reflexivity|]|discriminate].
    left. split; [left; auto|]. split; [reflexivity|left; exact I].
  - destruct (gone c) eqn:G; injection E as <-; cbn; (split; [reflexivity|]).
    + right; right; right. split; [reflexivity|]. eapply Hp; reflexivity.
    + left. split; [left; auto|]. split; [reflexivity|left; reflexivity].
  - assert (X : exists a, plain host_do lg = a /\ s' = match a with
        | HCall i b => Conf (Shared dp fi mb cf pf ex se false) (HLoop i b) [] c cs rq rp (lg ++ [EReq i b])
        | HReturn _ => Conf (Shared dp fi mb cf pf ex se false) HQuit1 [] c cs rq rp (lg ++ [EQuit]) end).
    { exists (plain host_do lg). split; [reflexivity|]. destruct (host_do lg); destruct (plain host_do lg); injection E as <-; reflexivity. }
    destruct X as (a & _ & ->). destruct a; cbn; (split; [reflexivity|]).
    + left. split; [right; auto|]. split; [reflexivity|right; auto].
    + right; left. repeat split; auto.
  - injection E as <-. cbn. split; [reflexivity|]. left. split; [right; auto|]. split; [reflexivity|now left].
  - destruct (0 <? dp); injection E as <-; cbn; (split; [reflexivity|]); left; (split; [right; auto|]); (split; [reflexivity|now left]).
  - rewrite andb_false_r in E. destruct (Z.ltb_spec 0 pf) as [L|L]; [|discriminate]. injection E as <-. cbn. split; [reflexivity|].
    right; right; left. repeat split; auto.
Qed.
Lemma entry_moves s s' : entry s -> loaded (sh s) = true -> pflag (sh s) = 0 -> can Host s s' ->
  cflag (sh s') = cflag (sh s) /\ pflag (sh s') = 0 /\ loaded (sh s') = true /\
  ((entry s' \/ quitting s') /\ (silent s \/ hpc s = HUser /\ hstk s = []) \/
   active s' /\ receives Ready (Move Host s s')).
Proof.
  intros A L F C. destruct C as [fail E]. assert (C : can Host s s') by now exists fail.
  destruct s as [[dp fi mb cf pf ex se ld] h hs c cs rq rp lg]. cbn in *. subst ld pf.
  assert (Hp : forall i b, h = HLoop i b -> receives Ready (Move Host (Conf (Shared dp fi mb cf 0 ex se true) h hs c cs rq rp lg) s')).
  { intros i b ->. cbn. split; [reflexivity|]. split; [reflexivity|]. intros [f' E']. unfold xhost_step, host_step in E, E'. cbn in E, E'.
    injection E as <-. discriminate E'. }
  unfold entry, quitting, active, silent in *. cbn in *.
  destruct A as [A ->]; destruct h; try contradiction; unfold xhost_step, host_step, wait in E; cbn in E.
  - assert (X : exists a, plain host_do lg = a /\ s' = match a with
        | HCall i b => Conf (Shared dp fi mb cf 0 ex se true) (HLoop i b) [] c cs rq rp (lg ++ [EReq i b])
        | HReturn _ => Conf (Shared dp fi mb cf 0 ex se true) HQuit1 [] c cs rq rp (lg ++ [EQuit]) end).
    { exists (plain host_do lg). split; [reflexivity|]. destruct (host_do lg); destruct (plain host_do lg); injection E as <-; reflexivity. }
    destruct X as (a & _ & ->). destruct a; cbn; repeat (split; [reflexivity|]); left; auto 6.
  - injection E as <-. cbn. repeat (split; [reflexivity|]). right. split; [auto|]. eapply Hp; reflexivity.
  - destruct (0 <? dp); injection E as <-; cbn; repeat (split; [reflexivity|]); left; auto 6.
  - rewrite andb_false_r in E. discriminate.
Qed.
Lemma quit_moves s s' : quitting s -> can Host s s' ->
  quitting s' /\ silent s /\ (cflag (sh s') = cflag (sh s) \/ cflag (sh s) = 0 /\ cflag (sh s') = 1).
Proof.
  intros A [fail E]. destruct s as [[dp fi mb cf pf ex se ld] h hs c cs rq rp lg]. unfold quitting, silent in *. cbn in *.
  destruct h; try contradiction; unfold xhost_step, host_step, wake in E; cbn in E.
  - destruct (gone c); injection E as <-; cbn; auto.
  - injection E as <-; cbn; auto.
  - destruct (debug && ex); injection E as <-; cbn; auto.
  - destruct (Z.eqb_spec cf 0); injection E as <-; cbn; auto.
  - destruct (gone c); [injection E as <-; cbn; auto|discriminate].
  - discriminate.
  - discriminate.
Qed.

Lemma turn_host es s s' : turn es s -> mode s -> can Host s s' -> turn (es ++ [Move Host s s']) s'.
Proof.
  intros T M C. destruct (host_frame _ _ C) as (Hc & _ & Hl).
  assert (Q : silent s \/ hpc s = HUser /\ hstk s = [] /\ loaded (sh s) = false -> ~ U (Move Host s s')).
  { intros [Q|(H1 & H2 & H3)]; [now apply host_quiet|]. destruct M as [M|M]; [congruence|]. now apply host_start_quiet. }
  assert (Kh : known Host es -> known Host (es ++ [Move Host s s'])) by (intros K; apply known_snoc; auto).
  destruct T as [P F1 F2 A K|P F1 F2 A K S|P F1 F2 A K|P F1 F2 A K S|P F1 F2 A L X K S|G F A S|G F A S S'|G F A L S|G K|Qt D].
  - destruct (active_moves _ _ A P F1 F2 C) as (E & [[A' E1]|[[A' E1]|[A' E1]]]).
    + apply t_host; auto. now rewrite Hc.
    + apply t_to_sandbox; auto; [now rewrite Hc|]. apply sent_now. cbn. auto.
    + apply t_quit; [exact A'|]. right; right; left. rewrite Hc. auto.
  - destruct (away_moves _ _ A C) as (E & [(A' & E1 & W)|[(A' & E1 & W)|[(_ & L & _)|(G & _)]]]); [| |lia|apply parked_gone in P; congruence].
    + apply t_to_sandbox; auto; try congruence. apply sent_snoc; [exact S|auto|]. cbn. intros (_ & X & _). congruence.
    + apply t_quit; [exact A'|]. right; right; right. rewrite Hc. split; [exact P|]. split; [congruence|].
      apply sent_snoc; [exact S|auto|]. cbn. intros (_ & X & _). congruence.
  - destruct (away_moves _ _ A C) as (E & [(A' & E1 & W)|[(A' & E1 & W)|[(_ & L & _)|(G & _)]]]); [| |lia|destruct P; congruence].
    + apply t_sandbox; auto; try congruence. apply known_snoc; auto.
    + apply t_quit; [exact A'|]. left. apply known_snoc; auto.
  - destruct (away_moves _ _ A C) as (E & [(A' & E1 & W)|[(A' & E1 & W)|[(A' & L & E1)|(G & _)]]]); [| | |apply parked_gone in P; congruence].
    + apply t_to_host; auto; try congruence; [apply known_snoc; auto|apply sent_other; [exact S|discriminate]].
    + apply t_quit; [exact A'|]. left. apply known_snoc; auto.
    + apply t_host; auto; try congruence; [lia|]. apply (received ToHost); [exact S|]. cbn. split; [reflexivity|]. split; [exact F2|lia].
  - destruct (entry_moves _ _ A L F2 C) as (E & E1 & E2 & [[A' W]|[A' R]]).
    + assert (Nu : ~ U (Move Host s s')). { destruct W as [W|[W1 W2]]; [auto|now apply host_start_quiet]. }
      destruct A' as [A'|A'].
      * apply t_ready; auto; try congruence; [apply known_snoc; auto|apply sent_other; [exact S|discriminate]].
      * apply t_quit; [exact A'|]. left. apply known_snoc; auto.
    + apply t_host; auto; try congruence. apply (received Ready); [exact S|exact R].
  - destruct (away_moves _ _ A C) as (E & [(A' & E1 & W)|[(A' & E1 & W)|[(_ & L & _)|(_ & R)]]]); [| |lia|].
    + apply t_lost; auto; try congruence. apply sent_other; [exact S|discriminate].
    + apply t_quit; [exact A'|]. right; left. congruence.
    + apply t_told; [congruence|]. apply (received Exit); [exact S|exact R].
  - destruct (away_moves _ _ A C) as (E & [(A' & E1 & W)|[(A' & E1 & W)|[(A' & L & E1)|(_ & R)]]]).
    + apply t_lost_to_host; auto; try congruence; (apply sent_other; [assumption|discriminate]).
    + apply t_quit; [exact A'|]. right; left. congruence.
    + apply t_told; [congruence|]. apply (received ToHost); [exact S|]. cbn. split; [reflexivity|]. split; [exact F|lia].
    + apply t_told; [congruence|]. apply (received Exit); [exact S'|exact R].
  - destruct L as [L X].
    destruct (entry_moves _ _ A L F C) as (E & E1 & E2 & [[[A'|A'] W]|[A' R]]).
    + apply t_lost_ready; auto; [congruence|]. apply sent_other; [exact S|discriminate].
    + apply t_quit; [exact A'|]. right; left. congruence.
    + apply t_told; [congruence|]. apply (received Ready); [exact S|exact R].
  - apply t_told; [congruence|auto].
  - destruct (quit_moves _ _ Qt C) as (A' & W & E). apply t_quit; [exact A'|]. rewrite Hc.
    destruct D as [K|[G|[[P F]|(P & F & S)]]].
    + left. apply known_snoc; auto.
    + now right; left.
    + destruct E as [E|[E0 E]]; [right; right; left; split; [exact P|congruence]|].
      right; right; right. split; [exact P|]. split; [exact E|]. apply sent_now. cbn. auto.
    + destruct E as [E|[E0 E]]; [|congruence].
      right; right; right. split; [exact P|]. split; [congruence|]. apply sent_snoc; [exact S|auto|]. cbn. intros (_ & X & _). congruence.
Qed.

Lemma use_known es s w s' : turn es s -> mode s -> can w s s' -> U (Move w s s') -> known w (es ++ [Move w s s']).
Proof.
  intros T M C Us. assert (Kw : known w es -> known w (es ++ [Move w s s'])) by (intros K; apply known_snoc; auto).
  destruct w.
  - assert (Q : silent s \/ hpc s = HUser /\ hstk s = [] /\ loaded (sh s) = false -> ~ U (Move Host s s')).
    { intros [Q|(H1 & H2 & H3)]; [now apply host_quiet|]. destruct M as [M|M]; [congruence|]. now apply host_start_quiet. }
    destruct T as [P F1 F2 A K|P F1 F2 A K S|P F1 F2 A K|P F1 F2 A K S|P F1 F2 A L X K S|G F A S|G F A S S'|G F A L S|G K|Qt D]; auto.
    + destruct (away_moves _ _ A C) as (E & [(A' & E1 & W)|[(A' & E1 & W)|[(A' & L & E1)|(G & _)]]]); [now apply Q in Us|apply Q in Us; [easy|auto]|lia|destruct P; congruence].
    + destruct (away_moves _ _ A C) as (E & [(A' & E1 & W)|[(A' & E1 & W)|[(A' & L & E1)|(G & _)]]]); [now apply Q in Us|apply Q in Us; [easy|auto]| |apply parked_gone in P; congruence].
      apply (received ToHost); [exact S|]. cbn. split; [reflexivity|]. split; [exact F2|lia].
    + destruct (entry_moves _ _ A L F2 C) as (E & E1 & E2 & [[A' W]|[A' R]]).
      * exfalso. destruct W as [W|[W1 W2]]; [now apply Q in Us; auto|]. revert Us. now apply host_start_quiet.
      * apply (received Ready); [exact S|exact R].
    + destruct (away_moves _ _ A C) as (E & [(A' & E1 & W)|[(A' & E1 & W)|[(_ & L & _)|(_ & R)]]]); [now apply Q in Us|apply Q in Us; [easy|auto]|lia|].
      apply (received Exit); [exact S|exact R].
    + destruct (away_moves _ _ A C) as (E & [(A' & E1 & W)|[(A' & E1 & W)|[(A' & L & E1)|(_ & R)]]]); [now apply Q in Us|apply Q in Us; [easy|auto]| |].
      * apply (received ToHost); [exact S|]. cbn. split; [reflexivity|]. split; [exact F|lia].
      * apply (received Exit); [exact S'|exact R].
    + destruct L as [L X].
      destruct (entry_moves _ _ A L F C) as (E & E1 & E2 & [[A' W]|[A' R]]).
      * exfalso. destruct W as [W|[W1 W2]]; [now apply Q in Us; auto|]. revert Us. now apply host_start_quiet.
      * apply (received Ready); [exact S|exact R].
    + destruct (quit_moves _ _ Qt C) as (A' & W & E). now apply Q in Us; auto.
  - assert (Q : parked (cpc s) -> ~ U (Move Sandbox s s')) by (intros P; now apply child_quiet).
    destruct T as [P F1 F2 A K|P F1 F2 A K S|P F1 F2 A K|P F1 F2 A K S|P F1 F2 A L X K S|G F A S|G F A S S'|G F A L S|G K|Qt D]; auto;
      try (now apply (gone_stuck _ _ G) in C); try (now apply Q in Us).
    destruct D as [K|[G|[[P F]|(P & F & S)]]]; [auto|now apply (gone_stuck _ _ G) in C|now apply Q in Us|now apply Q in Us].
Qed.

Notation exec := (exec debug false host_do child_do).
Lemma exec_turn s0 es s : stack_ok s0 -> mode s0 -> turn [] s0 -> exec s0 es s -> turn es s /\ stack_ok s /\ mode s.
Proof.
  intros So M T. induction 1 as [|es s w s' E (T' & So' & M') C]; [auto|]. destruct w.
  - destruct (host_stack _ _ So' C) as [A B]. split; [now apply turn_host|]. auto.
  - destruct (child_stack _ _ So' C) as [A B]. split; [now apply turn_child|]. auto.
Qed.
Theorem all_ordered s0 es s i j m n : stack_ok s0 -> mode s0 -> turn [] s0 -> exec s0 es s ->
  (i < j)%nat -> nth_error es i = Some m -> nth_error es j = Some n -> by_ m <> by_ n -> U m -> U n -> hb es i j.
Proof.
  intros So M T X L Em En B Um Un. revert i j m n L Em En B Um Un. induction X as [|es s w s' E IH C]; intros i j m n L Em En B Um Un.
  - destruct i; discriminate.
  - destruct (exec_turn _ _ _ So M T E) as (T' & So' & M').
    apply nth_snoc in En as [[Lj En]|[-> <-]].
    + apply hb_snoc. apply nth_snoc in Em as [[_ Em]|[-> _]]; [|lia]. eapply IH; eauto.
    + destruct (use_known _ _ _ _ T' M' C Un i m Em B Um) as (k & x & Ek & Bk & H).
      destruct (nth_snoc _ _ _ _ Ek) as [[Lk _]|[-> _]]; [|exact H].
      eapply hb_trans; [exact H|]. eapply hb_same; [exact Lk|exact Ek|apply nth_new|exact Bk].
Qed.
Lemma known_nil w : known w [].
Proof. intros [|i] m; discriminate. Qed.
Lemma start_fresh ks : (forall e, host_starts e -> except e) -> stack_ok (fresh ks) /\ mode (fresh ks) /\ turn [] (fresh ks).
Proof.
  intros X. split; [|split].
  - split; [cbn; lia|]. split; [intros [Y|Y]; discriminate|discriminate].
  - now right.
  - apply t_sandbox; try reflexivity; [split; [intros []|reflexivity]| |apply known_nil]. right. split; [split; [exact I|reflexivity]|reflexivity].
Qed.
Lemma start_idle : stack_ok idle /\ mode idle /\ turn [] idle.
Proof.
  split; [|split].
  - split; [cbn; lia|]. split; [intros [Y|Y]; discriminate|]. intros _. repeat split; discriminate.
  - now left.
  - apply t_host; try reflexivity; [|apply known_nil]. left. split; [reflexivity|apply Forall_nil].
Qed.
End Proof.
