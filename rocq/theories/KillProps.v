(** Claimed theorems about forbidden system calls (C78). *)
From Coq Require Import List ZArith Bool Lia.
From Verif Require Import SeccompModel SeccompSpec SeccompProps ProtoModel ProtoSpec ProtoDeath HostileModel KillModel KillSpec.
Import ListNotations.
Open Scope Z_scope.

Lemma live_in t ts : live t ts = true <-> In t ts.
Proof.
  unfold live. rewrite existsb_exists. split.
  - intros (x & I & E). apply Z.eqb_eq in E. subst. exact I.
  - intros I. exists t. split; [exact I|apply Z.eqb_refl].
Qed.
Lemma finish_in t u ts : In u (finish t ts) <-> In u ts /\ u <> t.
Proof. unfold finish. rewrite filter_In. destruct (Z.eqb_spec u t); cbn; intuition congruence. Qed.

Section Kill.
Variable self : Z.
Hypothesis process_number : 0 < self < 2 ^ 31.
Variable debug spurious : bool.
Variable host_do : list event -> hact.
Notation kstep := (kstep self debug spurious host_do).
Notation kruns := (kruns self debug spurious host_do).

(** What holds of every state: the process has ended iff it has no threads. *)
Definition coherent (s : sbx) : Prop := threads s = [] <-> gone (cpc (proto s)) = true.

Lemma host_step_cpc fail s s' : host_step debug spurious host_do fail s = Some s' -> cpc s' = cpc s.
Proof.
  unfold host_step, wait, wake. intros E.
  repeat match type of E with
  | context [match ?x with _ => _ end] => destruct x
  end; try discriminate; injection E as <-; reflexivity.
Qed.

Lemma kstep_coherent a s s' : coherent s -> kstep a s = Some s' -> coherent s'.
Proof.
  unfold coherent, kstep. intros C E. destruct a as [f|t c child|t v sent n|t].
  - destruct (host_step _ _ _ _ _) as [c|] eqn:H; [|discriminate]. injection E as <-. cbn.
    rewrite (host_step_cpc _ _ _ H). exact C.
  - destruct (live t (threads s)) eqn:L; [|discriminate]. injection E as <-. unfold keep. cbn.
    destruct (after _ _ _ _ _) as [|u r]; cbn; [tauto|]. split; [discriminate|].
    intros G. apply C in G. rewrite G in L. discriminate.
  - destruct (live t (threads s)); [|discriminate]. injection E as <-. exact C.
  - destruct (live t (threads s)); [|discriminate]. injection E as <-. cbn. tauto.
Qed.

Lemma kruns_coherent l : forall s s', coherent s -> kruns l s = Some s' -> coherent s'.
Proof.
  induction l as [|a l IH]; cbn; intros s s' C E; [injection E as <-; exact C|].
  destruct (kstep a s) as [s1|] eqn:K; [|discriminate]. eapply IH; [|exact E]. eapply kstep_coherent; eauto.
Qed.

Lemma started_coherent : coherent (started self).
Proof. split; cbn; discriminate. Qed.

(** C78: a forbidden call ends the thread that makes it, and no other: the host
    sees the process end iff it was the last. *)
Theorem forbidden_call_ends_thread : forall l s t c child s',
  kruns l (started self) = Some s -> 0 <= sarg c 0 -> documented self c = Kill ->
  kstep (Sys t c child) s = Some s' ->
  In t (threads s) /\
  (forall u, In u (threads s') <-> In u (threads s) /\ u <> t) /\
  (gone (cpc (proto s')) = true <-> forall u, In u (threads s) -> u = t) /\
  sh (proto s') = sh (proto s) /\ hpc (proto s') = hpc (proto s) /\ log (proto s') = log (proto s).
Proof.
  intros l s t c child s' R Hc D K.
  pose proof (kruns_coherent _ _ _ started_coherent R) as C. pose proof (kstep_coherent _ _ _ C K) as C'.
  unfold KillModel.kstep in K. destruct (live t (threads s)) eqn:L; [|discriminate]. injection K as <-.
  unfold after in C' |- *. rewrite (seccomp_decides_as_documented self c process_number Hc), D in C' |- *.
  split; [apply live_in, L|]. split; [intros u; apply finish_in|]. split.
  - unfold coherent in C'. transitivity (finish t (threads s) = []); [symmetry; exact C'|]. split.
    + intros E u I. destruct (Z.eq_dec u t) as [|N]; [auto|].
      assert (X : In u (finish t (threads s))) by (apply finish_in; auto). rewrite E in X. destruct X.
    + intros A. destruct (finish t (threads s)) as [|u r] eqn:E; [reflexivity|]. exfalso.
      assert (X : In u (finish t (threads s))) by (rewrite E; left; reflexivity).
      apply finish_in in X as [I N]. exact (N (A u I)).
  - unfold keep. cbn. destruct (finish t (threads s)); auto.
Qed.

(** C78: what any other call does to the threads: exit (60) ends the caller,
    exit_group (231) all of them, execve (59) and execveat (322) all but the
    caller, clone (56) starts one, and no other call starts or ends any. *)
Theorem other_calls_and_threads : forall t c child s s',
  0 <= sarg c 0 -> documented self c <> Kill -> kstep (Sys t c child) s = Some s' ->
  In t (threads s) /\
  forall u, In u (threads s') <->
    In u (threads s) /\ (sc_nr c = 60 -> u <> t) /\ sc_nr c <> 231 /\ (In (sc_nr c) [59; 322] -> u = t) \/
    sc_nr c = 56 /\ u = child.
Proof.
  intros t c child s s' Hc D K. unfold KillModel.kstep in K. destruct (live t (threads s)) eqn:L; [|discriminate].
  injection K as <-. apply live_in in L. split; [exact L|]. intros u. cbn [keep threads]. unfold after.
  rewrite (seccomp_decides_as_documented self c process_number Hc). cbn [In].
  destruct (documented self c) eqn:V; [congruence| |].
  - assert (T : sc_nr c <> 60 /\ sc_nr c <> 231 /\ sc_nr c <> 59 /\ sc_nr c <> 322 /\ sc_nr c <> 56).
    { unfold documented in V. destruct (negb (sc_native c)); [discriminate|].
      destruct (Z.testbit (sarg c 0) 16); repeat split; intros E; rewrite E in V; discriminate V. }
    intuition lia.
  - destruct (Z.eqb_spec (sc_nr c) 60) as [E|E]; [rewrite finish_in; intuition lia|].
    destruct (Z.eqb_spec (sc_nr c) 231) as [E1|E1]; [cbn; intuition lia|].
    destruct (Z.eqb_spec (sc_nr c) 59) as [E2|E2]; cbn [orb]; [cbn [In]; intuition (subst; auto; lia)|].
    destruct (Z.eqb_spec (sc_nr c) 322) as [E3|E3]; [cbn [In]; intuition (subst; auto; lia)|].
    destruct (Z.eqb_spec (sc_nr c) 56) as [E4|E4]; [rewrite in_app_iff; cbn [In]; intuition (subst; auto; lia)|].
    intuition lia.
Qed.

(** C78: a thread that made a forbidden call does nothing afterwards, whatever
    the others do (the kernel may number a new thread like it). *)
Theorem forbidden_call_is_the_last : forall l1 t c child l2 s,
  kruns (l1 ++ Sys t c child :: l2) (started self) = Some s ->
  0 <= sarg c 0 -> documented self c = Kill -> (forall a, In a l2 -> numbers_new a <> Some t) ->
  forall a, In a l2 -> actor a <> Some t.
Proof.
  intros l1 t c child l2 s R Hc D F.
  assert (R' : exists s1, kruns l2 s1 = Some s /\ ~ In t (threads s1)).
  { revert R. generalize (started self). induction l1 as [|a l1 IH]; intros s0 R.
    - cbn [app KillModel.kruns] in R. destruct (kstep _ s0) as [s1|] eqn:K; [|discriminate].
      exists s1. split; [exact R|]. unfold KillModel.kstep in K. destruct (live t (threads s0)); [|discriminate].
      injection K as <-. unfold after. rewrite (seccomp_decides_as_documented self c process_number Hc), D.
      cbn [keep threads]. rewrite finish_in. tauto.
    - cbn [app KillModel.kruns] in R. destruct (kstep a s0) as [s1|]; [|discriminate]. exact (IH s1 R). }
  clear R l1. destruct R' as (s1 & R & N). revert s1 R N. induction l2 as [|b l2 IH]; intros s1 R N a I; [destruct I|].
  cbn [KillModel.kruns] in R. destruct (kstep b s1) as [s2|] eqn:K; [|discriminate].
  assert (A : actor b <> Some t).
  { intros E. unfold KillModel.kstep in K. destruct b as [f|t' c' ch|t' v sent n|t']; cbn in E; try discriminate;
      injection E as ->; destruct (live t (threads s1)) eqn:L; try discriminate; apply live_in in L; exact (N L). }
  destruct I as [<-|I]; [exact A|]. apply (IH (fun a Ia => F a (or_intror Ia)) s2 R); [|exact I].
  intros J. apply N. unfold KillModel.kstep in K. destruct b as [f|t' c' ch|t' v sent n|t'].
  - destruct (host_step _ _ _ _ _); [|discriminate]. injection K as <-. exact J.
  - destruct (live t' (threads s1)); [|discriminate]. injection K as <-. cbn [keep threads] in J.
    assert (Nt : t' <> t) by (cbn in A; congruence).
    assert (Nc : ch <> t) by (specialize (F _ (or_introl eq_refl)); cbn in F; congruence).
    unfold after in J. destruct (decide _ _); [apply finish_in in J; tauto|exact J|].
    repeat match type of J with context [if ?x then _ else _] => destruct x end; cbn in J;
      try (apply finish_in in J); try (apply in_app_iff in J; cbn in J); intuition congruence.
  - destruct (live t' (threads s1)); [|discriminate]. injection K as <-. exact J.
  - destruct (live t' (threads s1)); [|discriminate]. injection K as <-. destruct J.
Qed.

(** C78: a call of a library that never started a thread throws once the library
    makes a forbidden call. *)
Theorem forbidden_call_reported : forall l s t c child s' i b d child_do,
  kruns l (started self) = Some s -> (forall u, In u (threads s) -> u = t) ->
  0 <= sarg c 0 -> documented self c = Kill -> kstep (Sys t c child) s = Some s' ->
  hpc (proto s) = HWait i b d -> pflag (sh (proto s)) = 0 ->
  inevitable debug spurious host_do child_do
    (fun z => hpc z = HThrew /\ log z = log (proto s) ++ [EThrow]) (proto s').
Proof.
  intros l s t c child s' i b d child_do R A Hc D K H P.
  destruct (forbidden_call_ends_thread l s t c child s' R Hc D K) as (_ & _ & [_ G] & Es & Eh & El).
  rewrite <- El. apply dead_pending_call_throws with i b d; [exact (G A)|congruence|congruence].
Qed.

(** C78 is false of libraries with threads: if the thread that serves the host's
    calls makes a forbidden call while another thread lives, the host is never
    told: its call lasts as long as any thread does. *)
Theorem forbidden_call_unreported : forall l s t c child s' u i b d l' s'',
  kruns l (started self) = Some s -> In u (threads s) -> u <> t ->
  0 <= sarg c 0 -> documented self c = Kill -> kstep (Sys t c child) s = Some s' ->
  hpc (proto s) = HWait i b d -> pflag (sh (proto s)) <= 0 ->
  kruns l' s' = Some s'' -> Forall silent l' -> threads s'' <> [] ->
  (hpc (proto s'') = HWait i b d \/ hpc (proto s'') = HPoll i b d) /\
  log (proto s'') = log (proto s).
Proof.
  intros l s t c child s' u i b d l' s'' R Iu Nu Hc D K H P R' Q Live.
  pose proof (kruns_coherent _ _ _ started_coherent R) as C. pose proof (kstep_coherent _ _ _ C K) as C'.
  destruct (forbidden_call_ends_thread l s t c child s' R Hc D K) as (_ & T & _ & Es & Eh & El).
  { assert (H1 : hpc (proto s') = HWait i b d \/ hpc (proto s') = HPoll i b d) by (left; congruence).
    assert (P1 : pflag (sh (proto s')) <= 0) by (rewrite Es; exact P).
    rewrite <- El. clear El Eh Es H P T K R C s l D Hc Iu.
    revert s' C' R' H1 P1. induction Q as [|a l' Qa Q IH]; cbn [KillModel.kruns]; intros s' C' R' H1 P1.
    - injection R' as ->. auto.
    - destruct (kstep a s') as [s2|] eqn:K; [|discriminate]. pose proof (kstep_coherent _ _ _ C' K) as C2.
      assert (Y : log (proto s2) = log (proto s') /\ sh (proto s2) = sh (proto s') /\
                  (hpc (proto s2) = HWait i b d \/ hpc (proto s2) = HPoll i b d)).
      { destruct a as [f|t' c' ch|t' v sent n|t']; [| |destruct Qa|destruct Qa]; unfold KillModel.kstep in K.
        - assert (G : gone (cpc (proto s')) = false).
          { destruct (gone (cpc (proto s'))) eqn:G; [exfalso|reflexivity]. apply C' in G. apply Live.
            assert (T2 : threads s2 = []) by (destruct (host_step _ _ _ _ _); [|discriminate]; injection K as <-; exact G).
            clear -R' T2. revert s2 R' T2. induction l' as [|a l' IH]; cbn [KillModel.kruns]; intros s2 R' T2.
            - injection R' as <-. exact T2.
            - destruct (kstep a s2) as [s3|] eqn:K; [|discriminate]. apply (IH s3 R').
              unfold KillModel.kstep in K. destruct a; rewrite ?T2 in K; cbn in K; try discriminate.
              destruct (host_step _ _ _ _ _); [|discriminate]. injection K as <-. first [exact T2|reflexivity]. }
          unfold host_step, wait in K. assert (P2 : (0 <? pflag (sh (proto s'))) = false) by (apply Z.ltb_ge; exact P1).
          destruct H1 as [H1|H1]; rewrite H1, ?P2, ?G in K.
          + destruct f; [injection K as <-; cbn; auto|discriminate].
          + injection K as <-. cbn. auto.
        - destruct (live t' (threads s')); [|discriminate]. injection K as <-. unfold keep. cbn [proto].
          destruct (after _ _ _ _ _); cbn; auto. }
      destruct Y as (Yl & Ys & Yh). rewrite <- Yl. apply (IH s2 C2 R' Yh). rewrite Ys. exact P1. }
Qed.
End Kill.
Print Assumptions forbidden_call_ends_thread.
Print Assumptions forbidden_call_is_the_last.
Print Assumptions other_calls_and_threads.
Print Assumptions forbidden_call_reported.
Print Assumptions forbidden_call_unreported.

(** The hypotheses can be met: process 100 has been called and starts thread 101;
    then thread 100 forks (57, forbidden) while the host waits.  Thread 101 goes on
    sleeping (35) and the host polling. *)
Definition demo_host (l : list event) : hact := match l with [] => HCall 1 4096 | _ => HReturn 0 end.
Definition call_made : list act := repeat (Host false) 7.
Definition clone_call : sysc := Sysc true 56 [65536].
Definition fork_call : sysc := Sysc true 57 [].
Definition sleep_call : sysc := Sysc true 35 [].
Example forbidden_call_waits :
  documented 100 fork_call = Kill /\ documented 100 clone_call = Allow /\
  exists s s' s'',
    kruns 100 true false demo_host (call_made ++ [Sys 100 clone_call 101]) (started 100) = Some s /\
    threads s = [100; 101] /\ hpc (proto s) = HWait 1 4096 0 /\ pflag (sh (proto s)) = 0 /\
    kstep 100 true false demo_host (Sys 100 fork_call 0) s = Some s' /\ threads s' = [101] /\
    kruns 100 true false demo_host [Host true; Sys 101 sleep_call 0; Host true; Host true] s' = Some s'' /\
    hpc (proto s'') = HPoll 1 4096 0 /\ threads s'' = [101].
Proof.
  split; [vm_compute; reflexivity|]. split; [vm_compute; reflexivity|]. eexists _, _, _. repeat (split; [vm_compute; reflexivity|]). vm_compute; reflexivity.
Qed.

(** ... and without thread 101 the call throws. *)
Example forbidden_call_throws :
  exists s s' s'',
    kruns 100 true false demo_host call_made (started 100) = Some s /\
    (forall u, In u (threads s) -> u = 100) /\ hpc (proto s) = HWait 1 4096 0 /\ pflag (sh (proto s)) = 0 /\
    kstep 100 true false demo_host (Sys 100 fork_call 0) s = Some s' /\ threads s' = [] /\
    kruns 100 true false demo_host [Host true; Host true] s' = Some s'' /\ hpc (proto s'') = HThrew.
Proof.
  eexists _, _, _. split; [vm_compute; reflexivity|]. split; [cbn; intros u [<-|[]]; reflexivity|].
  repeat (split; [vm_compute; reflexivity|]). vm_compute; reflexivity.
Qed.
