(** Claimed theorems about the system call filter (C29, C49). *)
From Coq Require Import List ZArith Lia Bool Permutation.
From Verif Require Import Base RegionProof SeccompModel SeccompSpec ChildCallsModel.
Import ListNotations.
Open Scope Z_scope.

(** The rules about one number. *)
Definition about (n : Z) (rs : list rule) : list rule := filter (fun r => ru_nr r =? n) rs.

Lemma find_about c rs :
  find (fun r => (ru_nr r =? sc_nr c) && conds_hold c (ru_conds r)) rs
  = find (fun r => conds_hold c (ru_conds r)) (about (sc_nr c) rs).
Proof.
  induction rs as [|r rs IH]; [reflexivity|]. cbn [find about filter].
  destruct (ru_nr r =? sc_nr c); cbn [andb find]; [destruct (conds_hold c (ru_conds r)); auto|exact IH].
Qed.

Definition numbers : list Z := map Z.of_nat (seq 0 500).

Definition expected_for (me n : Z) : list rule :=
  if within always_allowed n then [Rule Allow n []]
  else if within always_trapped n then [Rule Trap n []]
  else if within only_on_itself n then
    [Rule Allow n [(0%nat, CEq me)]; Rule Allow n [(0%nat, CEq 0)]]
  else if n =? 56 then [Rule Allow 56 [(0%nat, CMaskedEq 65536 65536)]]
  else [].

Definition expected (self n : Z) : list rule := expected_for (wrap self) n.

Lemma expected_rules_for me : map (fun n => about n (policy_for me)) numbers = map (expected_for me) numbers.
Proof. vm_compute. reflexivity. Qed.

Lemma expected_rules self : map (fun n => about n (policy self)) numbers = map (expected self) numbers.
Proof. exact (expected_rules_for (wrap self)). Qed.

Lemma policy_small self r : In r (policy self) -> 0 <= ru_nr r < 500.
Proof.
  unfold policy. generalize (wrap self). intros me.
  assert (F : forallb (fun n => (0 <=? n) && (n <? 500)) (map ru_nr (policy_for me)) = true) by (vm_compute; reflexivity).
  intros H. rewrite forallb_forall in F. specialize (F (ru_nr r) (in_map _ _ _ H)). lia.
Qed.

Lemma within_small rs n : forallb (fun '(a, b) => (0 <=? a) && (b <? 500)) rs = true ->
  within rs n = true -> 0 <= n < 500.
Proof.
  unfold within. intros F E. apply existsb_exists in E as [[a b] [I E]].
  rewrite forallb_forall in F. specialize (F _ I). cbv beta iota in F, E. lia.
Qed.

Lemma about_outside self n : ~ 0 <= n < 500 -> about n (policy self) = expected self n.
Proof.
  intros N. assert (A : about n (policy self) = []).
  { unfold about. destruct (filter _ _) as [|r l] eqn:E; [reflexivity|]. exfalso.
    assert (I : In r (filter (fun r => ru_nr r =? n) (policy self))) by (rewrite E; left; reflexivity).
    apply filter_In in I as [I1 I2]. apply policy_small in I1. lia. }
  rewrite A. unfold expected, expected_for.
  destruct (within always_allowed n) eqn:W1; [apply within_small in W1; [lia|reflexivity]|].
  destruct (within always_trapped n) eqn:W2; [apply within_small in W2; [lia|reflexivity]|].
  destruct (within only_on_itself n) eqn:W3; [apply within_small in W3; [lia|reflexivity]|].
  replace (n =? 56) with false by lia. reflexivity.
Qed.

Lemma some_eq (a b : list rule) : Some a = Some b -> a = b.
Proof. congruence. Qed.

Lemma about_policy self n : about n (policy self) = expected self n.
Proof.
  destruct (Z_lt_le_dec n 0) as [L|L]; [|destruct (Z_lt_le_dec n 500) as [L'|L']].
  2:{ pose proof (expected_rules self) as E.
      assert (N : nth_error numbers (Z.to_nat n) = Some n).
      { unfold numbers. rewrite (map_nth_error _ (Z.to_nat n) (seq 0 500) (d := Z.to_nat n)); [f_equal; lia|].
        rewrite nth_error_nth' with (d := 0%nat) by (rewrite seq_length; lia). rewrite seq_nth by lia. reflexivity. }
      pose proof (map_nth_error (fun n => about n (policy self)) _ _ N) as A.
      rewrite E in A. rewrite (map_nth_error (expected self) _ _ N) in A. symmetry. exact (some_eq _ _ A). }
  - apply about_outside. lia.
  - apply about_outside. lia.
Qed.

Lemma masked_bit v : 0 <= v -> (Z.land v 65536 =? 65536) = Z.testbit v 16.
Proof.
  intros H. change 65536 with (2 ^ 16). rewrite Z.land_comm.
  assert (E : Z.land (2 ^ 16) v = if Z.testbit v 16 then 2 ^ 16 else 0).
  { apply Z.bits_inj'. intros i Hi. rewrite Z.land_spec, Z.pow2_bits_eqb by lia.
    destruct (Z.eqb_spec 16 i) as [<-|N]; cbn [andb].
    - destruct (Z.testbit v 16); [rewrite Z.pow2_bits_true by lia|rewrite Z.bits_0]; reflexivity.
    - destruct (Z.testbit v 16); [rewrite Z.pow2_bits_false by lia|rewrite Z.bits_0]; reflexivity. }
  rewrite E. destruct (Z.testbit v 16); reflexivity.
Qed.

(** C29: for every process id, number and argument values the filter decides as
    documented. *)
Theorem seccomp_decides_as_documented : forall self c,
  0 < self < 2 ^ 31 -> 0 <= sarg c 0 -> decide (policy self) c = documented self c.
Proof.
  intros self c Hs Ha. unfold decide, decide_build, documented. destruct (sc_native c); cbn [negb]; [|reflexivity].
  rewrite find_about, about_policy. unfold expected, expected_for.
  destruct (within always_allowed (sc_nr c)); [reflexivity|].
  destruct (within always_trapped (sc_nr c)); [reflexivity|].
  destruct (within only_on_itself (sc_nr c)).
  - cbn [find ru_conds conds_hold forallb holds_cmp]. rewrite (wrap_small self) by (unfold is_word, W; lia).
    destruct (sarg c 0 =? self); [reflexivity|]. cbn [andb orb]. destruct (sarg c 0 =? 0); reflexivity.
  - destruct (sc_nr c =? 56); [|reflexivity].
    cbn [find ru_conds conds_hold forallb holds_cmp]. rewrite masked_bit, andb_true_r by exact Ha.
    destruct (Z.testbit (sarg c 0) 16); reflexivity.
Qed.
Print Assumptions seccomp_decides_as_documented.

(** C29: no number has rules with different actions, so the order in which the
    rules are added does not matter. *)
Lemma about_one_action self n r r' : In r (about n (policy self)) -> In r' (about n (policy self)) -> ru_act r = ru_act r'.
Proof.
  rewrite about_policy. unfold expected, expected_for.
  destruct (within always_allowed n); [intros [<-|[]] [<-|[]]; reflexivity|].
  destruct (within always_trapped n); [intros [<-|[]] [<-|[]]; reflexivity|].
  destruct (within only_on_itself n); [intros [<-|[<-|[]]] [<-|[<-|[]]]; reflexivity|].
  destruct (n =? 56); [intros [<-|[]] [<-|[]]; reflexivity|intros []].
Qed.

Theorem seccomp_allowed_xor_trapped : forall self n,
  ~ (exists r r', In r (policy self) /\ In r' (policy self) /\ ru_nr r = n /\ ru_nr r' = n /\
       ru_act r = Allow /\ ru_act r' = Trap).
Proof.
  intros self n (r & r' & I & I' & N & N' & A & A').
  assert (E : ru_act r = ru_act r').
  { apply (about_one_action self n); apply filter_In; split; auto; lia. }
  congruence.
Qed.
Print Assumptions seccomp_allowed_xor_trapped.

Theorem seccomp_rule_order_irrelevant : forall self rs c,
  Permutation rs (policy self) -> decide rs c = decide (policy self) c.
Proof.
  intros self rs c P. unfold decide, decide_build. destruct (sc_native c); [|reflexivity].
  set (f := fun r => (ru_nr r =? sc_nr c) && conds_hold c (ru_conds r)).
  destruct (find f rs) as [r|] eqn:E, (find f (policy self)) as [r'|] eqn:E'; auto.
  - apply find_some in E as [I F], E' as [I' F']. unfold f in *.
    apply (about_one_action self (sc_nr c)); apply filter_In; split; try lia; auto.
    eapply Permutation_in; eauto.
  - exfalso. apply find_some in E as [I F]. eapply find_none in E'; [|eapply Permutation_in; [exact P|exact I]].
    congruence.
  - exfalso. apply find_some in E' as [I F]. eapply find_none in E; [|eapply Permutation_in; [apply Permutation_sym; exact P|exact I]].
    congruence.
Qed.
Print Assumptions seccomp_rule_order_irrelevant.

(** C29: calls that name files, peers, other processes or System V objects, or
    administer the machine, are never let through, whatever their arguments. *)
Theorem seccomp_never_allows : forall self c,
  In (sc_nr c) (names_a_file ++ names_a_peer ++ reaches_processes ++ names_ipc_or_keys ++ administers) ->
  decide (policy self) c <> Allow.
Proof.
  intros self c I. unfold decide, decide_build. destruct (sc_native c); [|discriminate]. rewrite find_about, about_policy.
  assert (F : forallb (fun n => negb (within always_allowed n) && negb (within only_on_itself n) && negb (n =? 56))
     (names_a_file ++ names_a_peer ++ reaches_processes ++ names_ipc_or_keys ++ administers) = true) by reflexivity.
  rewrite forallb_forall in F. specialize (F _ I).
  unfold expected, expected_for. destruct (within always_allowed (sc_nr c)); [discriminate|].
  destruct (within always_trapped (sc_nr c)); [discriminate|].
  destruct (within only_on_itself (sc_nr c)); [discriminate|]. destruct (sc_nr c =? 56); discriminate.
Qed.
Print Assumptions seccomp_never_allows.

(** C29: what the child's own runtime needs always goes through, and the calls
    the child emulates are delivered to the emulator. *)
Theorem seccomp_runtime_works : forall self c,
  sc_native c = true ->
  (In (sc_nr c) runtime_needs -> decide (policy self) c = Allow) /\
  (In (sc_nr c) syscall_numbers -> decide (policy self) c = Trap).
Proof.
  intros self c NV. unfold decide, decide_build. rewrite NV, find_about, about_policy.
  assert (F : forallb (within always_allowed) runtime_needs = true) by reflexivity.
  assert (G : forallb (fun n => within always_trapped n && negb (within always_allowed n)) syscall_numbers = true) by reflexivity.
  rewrite forallb_forall in F, G. split; intros I.
  - specialize (F _ I). unfold expected, expected_for. rewrite F. reflexivity.
  - specialize (G _ I). unfold expected, expected_for. destruct (within always_allowed (sc_nr c)); [rewrite andb_false_r in G; discriminate|].
    destruct (within always_trapped (sc_nr c)); [reflexivity|discriminate].
Qed.
Print Assumptions seccomp_runtime_works.

(** C29: whichever rules fail to be added, the filter that is loaded allows no
    call that the complete policy does not allow. *)
Lemma add_rules_incl asserts ok : forall rs i l, add_rules asserts ok i rs = Ret l -> incl l rs.
Proof.
  induction rs as [|r rs IH]; intros i l; cbn [add_rules]; [intros H; injection H as <-; intros x []|].
  destruct (ok i).
  - destruct (add_rules asserts ok (S i) rs) eqn:E; cbn [obind]; try discriminate.
    intros H. injection H as <-. intros x [<-|I]; [left; reflexivity|right; eapply IH; eauto].
  - destruct asserts; [discriminate|]. intros H x I. right. eapply IH; eauto.
Qed.

Lemma install_incl asserts init_ok add_ok load_ok full rs :
  install asserts init_ok add_ok load_ok full = Ret (Some rs) -> incl rs full.
Proof.
  unfold install. destruct init_ok; cbn [negb]; [|destruct asserts; discriminate].
  destruct (add_rules asserts add_ok 0 full) as [l| | | |] eqn:E; cbn [obind]; try discriminate.
  destruct load_ok; [|destruct asserts; discriminate]. intros H. injection H as ->. eapply add_rules_incl; eauto.
Qed.

Theorem seccomp_missing_rules_fail_closed : forall asserts init_ok add_ok load_ok self rs c,
  apply_policy asserts init_ok add_ok load_ok self = Ret (Some rs) ->
  decide rs c <> Kill -> decide rs c = decide (policy self) c.
Proof.
  intros asserts init_ok add_ok load_ok self rs c H. apply install_incl in H. unfold decide, decide_build.
  destruct (sc_native c); [|reflexivity].
  pose proof (about_one_action self (sc_nr c)) as OA. revert H OA. generalize (policy self). intros full H OA.
  set (f := fun r => (ru_nr r =? sc_nr c) && conds_hold c (ru_conds r)).
  destruct (find f rs) as [r|] eqn:F; [|intros X; contradiction]. intros _.
  apply find_some in F as [I F]. apply H in I.
  destruct (find f full) as [r'|] eqn:F'.
  - apply find_some in F' as [I' F']. unfold f in *.
    apply OA; apply filter_In; split; auto; lia.
  - eapply find_none in F'; [|exact I]. congruence.
Qed.
Print Assumptions seccomp_missing_rules_fail_closed.

(** C29: with assertions compiled in, the child never continues without the
    complete filter. *)
Lemma install_asserts init_ok add_ok load_ok full flt :
  install true init_ok add_ok load_ok full = Ret flt -> flt = Some full.
Proof.
  unfold install. destruct init_ok; [|discriminate]. cbn [negb].
  assert (G : forall rs i l, add_rules true add_ok i rs = Ret l -> l = rs).
  { induction rs as [|r rs IH]; intros i l; cbn [add_rules]; [congruence|]. destruct (add_ok i); [|discriminate].
    destruct (add_rules true add_ok (S i) rs) eqn:E; cbn [obind]; try discriminate. intros X. injection X as <-.
    f_equal. eapply IH; eauto. }
  destruct (add_rules true add_ok 0 full) as [l| | | |] eqn:E; cbn [obind]; try discriminate.
  destruct load_ok; [|discriminate]. intros H. injection H as <-. f_equal. eapply G; eauto.
Qed.

Theorem seccomp_asserts_fail_closed : forall init_ok add_ok load_ok self flt,
  apply_policy true init_ok add_ok load_ok self = Ret flt -> flt = Some (policy self).
Proof. intros init_ok add_ok load_ok self flt. apply install_asserts. Qed.
Print Assumptions seccomp_asserts_fail_closed.

(** C49 (limit): in a release build, a filter that cannot be created or loaded
    is silently absent: every system call is then let through. *)
Theorem seccomp_release_fails_open : forall init_ok add_ok load_ok self,
  init_ok && load_ok = false ->
  exists flt, apply_policy false init_ok add_ok load_ok self = Ret flt /\ forall c, fate flt c = Allow.
Proof.
  intros init_ok add_ok load_ok self H. exists None. split; [|reflexivity]. unfold apply_policy, install. generalize (policy self). intros full.
  destruct init_ok; [|reflexivity]. cbn [negb andb] in *. rewrite H.
  assert (G : forall rs i, exists l, add_rules false add_ok i rs = Ret l).
  { induction rs as [|r rs IH]; intros i; cbn [add_rules]; [eauto|]. destruct (IH (S i)) as [l E].
    destruct (add_ok i); rewrite E; cbn [obind]; eauto. }
  destruct (G full 0%nat) as [l E]. rewrite E. reflexivity.
Qed.
Print Assumptions seccomp_release_fails_open.

(** C49 (limit): calls that name a file, a network peer, another process or
    that make the kernel perform other calls are let through with any
    arguments. *)
Theorem seccomp_names_let_through_refuted : forall self c,
  sc_native c = true ->
  In (sc_nr c) (files_let_through ++ peers_let_through ++ processes_let_through ++ deputies_let_through) ->
  decide (policy self) c = Allow.
Proof.
  intros self c NV I. unfold decide, decide_build. rewrite NV, find_about, about_policy.
  assert (F : forallb (within always_allowed)
    (files_let_through ++ peers_let_through ++ processes_let_through ++ deputies_let_through) = true) by reflexivity.
  rewrite forallb_forall in F. specialize (F _ I). unfold expected, expected_for. rewrite F. reflexivity.
Qed.
Print Assumptions seccomp_names_let_through_refuted.

(** C49 (limit): built with DEBUG_SANDBOX the filter stops nothing: every native
    call is let through or handed to the emulator, and the ones handed over are
    the same as in the other build. *)
Theorem seccomp_debug_stops_nothing : forall self c,
  sc_native c = true ->
  decide_build true (policy self) c = (if within always_trapped (sc_nr c) then Trap else Allow) /\
  (decide (policy self) c <> Kill -> decide_build true (policy self) c = decide (policy self) c).
Proof.
  intros self c NV. unfold decide, decide_build. rewrite NV, find_about, about_policy.
  assert (D : within always_allowed (sc_nr c) = true -> within always_trapped (sc_nr c) = false).
  { intros A. assert (G : forallb (fun n => negb (within always_allowed n && within always_trapped n)) numbers = true) by (vm_compute; reflexivity).
    rewrite forallb_forall in G. assert (I : In (sc_nr c) numbers).
    { apply within_small in A; [|reflexivity]. unfold numbers. apply in_map_iff. exists (Z.to_nat (sc_nr c)). split; [lia|].
      apply in_seq. lia. }
    specialize (G _ I). rewrite A in G. destruct (within always_trapped (sc_nr c)); [discriminate|reflexivity]. }
  unfold expected, expected_for.
  destruct (within always_allowed (sc_nr c)) eqn:A; [rewrite D by reflexivity; split; reflexivity|].
  destruct (within always_trapped (sc_nr c)) eqn:T; [split; reflexivity|].
  split; [|destruct (find _ _); [reflexivity|congruence]].
  destruct (find _ _) as [r|] eqn:E; [|reflexivity]. apply find_some in E as [E _].
  destruct (within only_on_itself (sc_nr c)); [destruct E as [<-|[<-|[]]]; reflexivity|].
  destruct (sc_nr c =? 56); [destruct E as [<-|[]]; reflexivity|destruct E].
Qed.
Print Assumptions seccomp_debug_stops_nothing.

(** ** Concrete cases: pid 4242; tgkill on itself and on another process, clone
    of a thread and of a process, openat2. *)
Example seccomp_ex :
  map (decide (policy 4242))
    [Sysc true 234 [4242; 4242; 6]; Sysc true 234 [1; 1; 9]; Sysc true 56 [4001536]; Sysc true 56 [17];
     Sysc true 437 [3]; Sysc false 0 []; Sysc true 0 []; Sysc true 2 []; Sysc true 129 [1; 9; 0]]
  = [Allow; Kill; Allow; Kill; Kill; Kill; Allow; Trap; Allow].
Proof. vm_compute. reflexivity. Qed.

Example seccomp_ex_apply :
  apply_policy true true (fun _ => true) true 4242 = Ret (Some (policy 4242)) /\
  exists rs, apply_policy false true (fun i => negb (Nat.eqb i 1)) true 4242 = Ret (Some rs) /\
    decide rs (Sysc true 1 []) = Kill /\ decide rs (Sysc true 0 []) = Allow.
Proof. split; [reflexivity|]. eexists. split; [reflexivity|]. split; reflexivity. Qed.
