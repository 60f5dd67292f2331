(** Claimed theorems about the start-up of the sandbox process (C70). *)
From Coq Require Import List ZArith Lia Bool Ascii String.
From Coq Require Import List.
From Verif Require Import Base RegionSpec RegionProof SeccompModel SeccompSpec SeccompProps FdModel FdSpec FdProof FdProps MainModel MainSpec.
From Verif Require Import ChildCallsModel ChildCallsSpec ChildCallsProof.
Import ListNotations.
Open Scope Z_scope.

(** ** Decimal numbers *)

Lemma digit_value d : 0 <= d < 10 -> is_digit (digit d) = true /\ Z.of_nat (nat_of_ascii (digit d) - 48) = d.
Proof.
  intros H. unfold is_digit, digit. rewrite nat_ascii_embedding by lia.
  split; [|lia]. apply andb_true_iff. split; apply Nat.leb_le; lia.
Qed.
Lemma digits_decimal : forall k n, 0 <= n < 10 ^ Z.of_nat (S k) -> decimal n (digits (S k) n).
Proof.
  induction k as [|k IH]; intros n H; cbn [digits].
  - change (10 ^ Z.of_nat 1) with 10 in H. destruct (Z.ltb_spec n 10); [|lia]. cbn [app].
    rewrite Z.mod_small by lia. constructor. lia.
  - destruct (Z.ltb_spec n 10) as [L|L].
    + cbn [app]. rewrite Z.mod_small by lia. constructor. lia.
    + change (ascii_of_nat (48 + Z.to_nat (n mod 10))) with (digit (n mod 10)).
      rewrite (Z.div_mod n 10) at 1 by lia. pose proof (Z.mod_pos_bound n 10).
      constructor; [|lia|apply IH].
      * apply Z.div_str_pos. lia.
      * split; [apply Z.div_pos; lia|]. apply Z.div_lt_upper_bound; [lia|].
        rewrite (Nat2Z.inj_succ (S k)), Z.pow_succ_r in H by lia. lia.
Qed.
Lemma print_int_decimal n : int_range n -> decimal n (print_int n).
Proof.
  unfold int_range. intros H. unfold print_int. destruct (Z.ltb_spec n 0); [lia|]. apply digits_decimal.
  change (10 ^ Z.of_nat 10) with 10000000000. lia.
Qed.
Lemma decimal_nonneg n t : decimal n t -> 0 <= n.
Proof. induction 1; lia. Qed.
Lemma decimal_cases n t : decimal n t ->
  (0 <= n < 10 /\ t = [digit n]) \/
  (exists m u d, 0 < m /\ 0 <= d < 10 /\ decimal m u /\ n = 10 * m + d /\ t = u ++ [digit d]).
Proof. destruct 1 as [d H|n t d N D H]; [left; auto|right; exists n, t, d; auto]. Qed.
Lemma decimal_unique n t : decimal n t -> forall t', decimal n t' -> t = t'.
Proof.
  induction 1 as [d H|n t d N D H IH]; intros t' H'; apply decimal_cases in H' as [[X ->]|(m & u & d' & M & D' & X & E & ->)].
  - reflexivity.
  - lia.
  - lia.
  - assert (m = n /\ d' = d) as [-> ->] by lia. rewrite (IH u X). reflexivity.
Qed.
Lemma scan_digits_app n t : decimal n t -> forall r acc, exists k, 0 <= k /\ scan_digits (t ++ r) acc = scan_digits r (k * acc + n).
Proof.
  induction 1 as [d H|n t d N D H IH]; intros r acc.
  - exists 10. split; [lia|]. destruct (digit_value d H) as [A B]. cbn [app scan_digits]. rewrite A, B. reflexivity.
  - rewrite <- app_assoc. destruct (IH ([digit d] ++ r) acc) as (k & K & ->).
    destruct (digit_value d D) as [A B]. cbn [app scan_digits]. rewrite A, B. exists (10 * k). split; [lia|]. f_equal. lia.
Qed.
Lemma scan_digits_stop r acc : (forall c, hd_error r = Some c -> is_digit c = false) -> scan_digits r acc = acc.
Proof. destruct r as [|c r]; intros H; [reflexivity|]. cbn [scan_digits]. rewrite (H c eq_refl). reflexivity. Qed.
Lemma decimal_head n t : decimal n t -> exists c r, t = c :: r /\ is_digit c = true.
Proof.
  induction 1 as [d H|n t d N D H (c & r & -> & IH)].
  - exists (digit d), []. split; [reflexivity|]. apply digit_value. exact H.
  - exists c, (r ++ [digit d]). auto.
Qed.
Lemma digit_not_other c : is_digit c = true -> is_space c = false /\ (nat_of_ascii c =? 45)%nat = false /\ (nat_of_ascii c =? 43)%nat = false.
Proof.
  unfold is_digit, is_space. intros H. apply andb_true_iff in H as [A B]. apply Nat.leb_le in A, B.
  repeat split; [apply orb_false_iff; split; [|apply andb_false_iff; right]|..]; try apply Nat.eqb_neq; try apply Nat.leb_gt; lia.
Qed.
Lemma scan_int_decimal n t r : decimal n t -> (forall c, hd_error r = Some c -> is_digit c = false) ->
  scan_int (t ++ r) = Some n.
Proof.
  intros D E. destruct (decimal_head n t D) as (c & u & -> & C). cbn [app scan_int].
  destruct (digit_not_other c C) as (A & B & B'). rewrite A, B, B'. unfold scan_unsigned. rewrite C.
  f_equal. change (c :: u ++ r) with ((c :: u) ++ r). destruct (scan_digits_app n _ D r 0) as (k & K & ->).
  rewrite scan_digits_stop by exact E. lia.
Qed.
Lemma no_digit r : no_more_digits r -> forall c, hd_error r = Some c -> is_digit c = false.
Proof.
  intros H c E. destruct (is_digit c) eqn:D; [|reflexivity]. exfalso. unfold is_digit in D.
  apply andb_true_iff in D as [A B]. apply Nat.leb_le in A, B.
  apply (H c (Z.of_nat (nat_of_ascii c - 48)) E); [lia|]. unfold digit. rewrite Nat2Z.id.
  replace (48 + (nat_of_ascii c - 48))%nat with (nat_of_ascii c) by lia. symmetry. apply ascii_nat_embedding.
Qed.
Lemma no_digit_nil : no_more_digits [].
Proof. intros c d E. discriminate. Qed.
Lemma strip_prefix_app p s : strip_prefix p (p ++ s) = Some s.
Proof. induction p as [|a p IH]; [reflexivity|]. cbn [app strip_prefix]. destruct (ascii_dec a a); [exact IH|congruence]. Qed.

Lemma fdlopen_path_names pid fd : int_range pid -> int_range fd -> names_descriptor pid fd (fdlopen_path pid fd).
Proof. intros A B. exists (print_int pid), (print_int fd). split; [|split]; [apply print_int_decimal; auto..|reflexivity]. Qed.
Lemma own_descriptor_of pid fd s r : int_range pid -> names_descriptor pid fd s ->
  no_more_digits r ->
  own_descriptor (proc_prefix pid) (s ++ r) = Some fd.
Proof.
  intros P (p & f & Dp & Df & ->) R. unfold own_descriptor, proc_prefix.
  rewrite (decimal_unique _ _ (print_int_decimal pid P) _ Dp).
  replace ((tx "/proc/" ++ p ++ tx "/fd/" ++ f) ++ r) with ((tx "/proc/" ++ p ++ tx "/fd/") ++ (f ++ r)) by (rewrite <- !app_assoc; reflexivity).
  rewrite strip_prefix_app. apply scan_int_decimal; [exact Df|apply no_digit; exact R].
Qed.

(** C70 and C45: a trapped openat of the name of one of the process's own
    descriptors, whatever follows the number, duplicates that descriptor; the
    host is not asked and the child's memory is as before. *)
Theorem own_descriptor_opened : forall shm hi alloc fuel H dup sp st f pid fd s r p,
  int_range pid -> int_range fd -> names_descriptor pid fd s ->
  no_more_digits r ->
  cstring_at (cs_mem st) p (s ++ r) -> p <> 0 -> (List.length (s ++ r) < fuel)%nat ->
  f_code f = 1 -> f_sysno f = 257 -> argument f 1 = p -> -(2 ^ 31) <= dup fd < 2 ^ 31 ->
  exists f', emulate shm hi alloc fuel H (proc_prefix pid) dup sp st f = Ret (st, f') /\
    f_rax f' = wrap (dup fd) /\ f_rip f' = f_call_addr f.
Proof.
  intros shm hi alloc fuel H dup sp st f pid fd s r p P F N R C P0 L Fc Fn Fa D. rewrite argument_reg in Fa.
  unfold emulate. rewrite Fc. cbn [Z.eqb Pos.eqb]. unfold SyscallCallbackCount, syscall_numbers.
  cbn [syscall_callback nth]. rewrite !Fn. cbn [Z.eqb Pos.eqb].
  cbn [emulated]. rewrite Fa. unfold callback_openat. destruct (Z.eqb_spec p 0); [contradiction|].
  rewrite (strlen_cstring _ _ _ _ C L). apply cstring_read in C as [C _].
  assert (RB : read_bytes (cs_mem st) p (List.length (s ++ r)) = s ++ r).
  { apply nth_error_ext. intros i.
    assert (X : nth_error (read_bytes (cs_mem st) p (S (List.length (s ++ r)))) i = nth_error ((s ++ r) ++ [nul]) i) by congruence.
    destruct (Nat.lt_ge_cases i (List.length (s ++ r))) as [G|G].
    - rewrite read_bytes_nth in * by lia. rewrite X. apply nth_error_app1. exact G.
    - rewrite (proj2 (nth_error_None (s ++ r) i)) by lia. apply nth_error_None. rewrite read_bytes_length. lia. }
  rewrite RB, (own_descriptor_of pid fd s r P N R). unfold int_range in F.
  destruct (Z.leb_spec (-(2 ^ 31)) fd); [|lia]. destruct (Z.ltb_spec fd (2 ^ 31)); [|lia]. cbn [andb obind].
  assert (T : to_int32 (dup fd) = dup fd).
  { unfold to_int32. destruct (Z_lt_le_dec (dup fd) 0).
    - rewrite <- (Z.mod_unique_pos (dup fd) (2 ^ 32) (-1) (dup fd + 2 ^ 32)) by lia. destruct (_ <? _) eqn:X; lia.
    - rewrite Z.mod_small by lia. destruct (_ <? _) eqn:X; lia. }
  rewrite T. eexists. split; [reflexivity|]. destruct (Z.ltb_spec (dup fd) 0); cbn; split; auto. f_equal. lia.
Qed.
Print Assumptions own_descriptor_opened.

(** ** The calls main makes *)

Lemma policy_allows self n r : within always_allowed n = true -> In r (policy self) -> ru_nr r = n -> ru_act r = Allow.
Proof.
  intros A I N. assert (J : In r (about n (policy self))) by (apply filter_In; split; [exact I|lia]).
  rewrite about_policy in J. unfold expected, expected_for in J. rewrite A in J. destruct J as [<-|[]]. reflexivity.
Qed.
Lemma sys_own w flt h n args :
  apply_policy (w_asserts w) (w_init_ok w) (w_add_ok w) (w_load_ok w) (w_self w) = Ret flt ->
  within always_allowed n = true -> sys w flt h n args = Performed \/ sys w flt h n args = Dies.
Proof.
  intros E A. unfold sys. destruct flt as [rs|]; [|auto]. unfold apply_policy in E. apply install_incl in E.
  unfold decide_build. cbn [sc_native sc_nr]. destruct (find _ rs) as [r|] eqn:F; [|destruct (w_debug_sandbox w); auto].
  apply find_some in F as [I F]. rewrite (policy_allows (w_self w) n r A (E _ I)) by lia. auto.
Qed.
Lemma sys_own_full w h n args : within always_allowed n = true -> sys w (Some (policy (w_self w))) h n args = Performed.
Proof.
  intros A. unfold sys, decide_build. cbn [sc_native sc_nr].
  set (c := Sysc true n args). change n with (sc_nr c) in A |- *. rewrite find_about, about_policy.
  unfold expected, expected_for. rewrite A. reflexivity.
Qed.
Lemma sys_openat_full w args : sys w (Some (policy (w_self w))) true 257 args = Emulated.
Proof.
  unfold sys, decide_build. cbn [sc_native sc_nr].
  set (c := Sysc true 257 args). change 257 with (sc_nr c). rewrite find_about, about_policy. reflexivity.
Qed.
Lemma get_close n m t : get (close n t) m = if m =? n then None else get t m.
Proof.
  unfold close. destruct (get t n) as [d|] eqn:E.
  - apply get_set. eapply get_pos. exact E.
  - destruct (Z.eqb_spec m n) as [->|]; auto.
Qed.
Lemma open_then_close limit d t t1 r : open_file limit d t = (t1, r) -> 0 <= r -> forall n, get (close r t1) n = get t n.
Proof.
  unfold open_file. destruct d as [d|]; [|intros E; injection E as <- <-; lia].
  destruct (lowest t <? limit)%nat; intros E; injection E as <- <-; [|lia]. intros _ n.
  rewrite get_close, get_set_nat. destruct (Z.eqb_spec n (Z.of_nat (lowest t))) as [->|]; [|reflexivity].
  rewrite get_nat, lowest_free. reflexivity.
Qed.
Lemma linker_open_then_close w e p t t1 r : linker_open w e p t = (t1, r) -> 0 <= r -> forall n, get (close r t1) n = get t n.
Proof.
  unfold linker_open. intros E R. destruct e.
  - eapply open_then_close; eauto.
  - destruct (w_openat w).
    + destruct (own_descriptor _ p) as [fd|]; [unfold dup in E; eapply open_then_close; eauto|].
      destruct (get t FDSocket); [eapply open_then_close; eauto|injection E as <- <-; lia].
    + destruct (get t FDSocket); [eapply open_then_close; eauto|injection E as <- <-; lia].
  - injection E as <- <-; lia.
Qed.
Lemma fdlopen_handle w flt h fd t f t' : fdlopen w flt h fd t = Handle f t' ->
  (forall n, get t' n = get t n) /\ exists t1 r d,
    linker_open w (sys w flt h (if w_openat w then sys_openat else sys_open) (if w_openat w then [wrap AT_FDCWD] else []))
      (fdlopen_path (w_self w) fd) t = (t1, r) /\ 0 <= r /\ get t1 r = Some d /\ f = file d.
Proof.
  unfold fdlopen. destruct (w_memory w); cbn [negb]; [|discriminate].
  set (e := sys w flt h _ _). intros H.
  assert (G : (let (t1, r) := linker_open w e (fdlopen_path (w_self w) fd) t in
      if r <? 0 then Null t1
      else match get t1 r with
           | None => Null t1
           | Some d =>
             match w_image w (file d) with
             | Some im => if im_good im then Handle (file d) (close r t1) else Null (close r t1)
             | None => Null (close r t1)
             end
           end) = Handle f t') by (destruct e; [exact H|exact H|discriminate]).
  clear H. destruct (linker_open w e _ t) as [t1 r] eqn:L. destruct (Z.ltb_spec r 0); [discriminate|].
  destruct (get t1 r) as [d|] eqn:D; [|discriminate]. destruct (w_image w (file d)) as [im|]; [|discriminate].
  destruct (im_good im); [|discriminate]. injection G as <- <-. split; [eapply linker_open_then_close; eauto|].
  exists t1, r, d. auto.
Qed.

(** What is known whenever the library's code gets to run. *)
Lemma main_reaches w t f flt h t' : In (LibraryCode f flt h t') (snd (main w t)) ->
  apply_policy (w_asserts w) (w_init_ok w) (w_add_ok w) (w_load_ok w) (w_self w) = Ret flt /\
  h = true /\ fdlopen w flt true 6 (close 4 (close 3 t)) = Handle f t'.
Proof.
  unfold main. destruct (apply_policy _ _ _ _ _) as [fl| | | |] eqn:P; cbn [snd In]; try tauto.
  unfold after_policy.
  destruct (sys_own w fl false sys_rt_sigaction [SIGSYS] P eq_refl) as [->| ->]; [|cbn; tauto].
  destruct (sys_own w fl true sys_close [SharedMemRegion] P eq_refl) as [->| ->]; [|cbn; tauto].
  destruct (sys_own w fl true sys_close [PageMapPage] P eq_refl) as [->| ->]; [|cbn; tauto].
  cbn [do_close]. unfold SharedMemRegion, PageMapPage, MainLibrary.
  destruct (w_asserts w && negb (w_heap_ok w)); [cbn; tauto|].
  destruct (fdlopen w fl true 6 (close 4 (close 3 t))) as [| |t0|f0 t0] eqn:L; try (cbn; tauto).
  destruct (w_image w f0) as [im|]; [|cbn; tauto].
  assert (G : forall l, (forall e, In e l -> e = LibraryCode f0 fl true t0 \/ (forall a b c d, e <> LibraryCode a b c d)) ->
    In (LibraryCode f flt h t') l -> Ret fl = Ret flt /\ h = true /\ fdlopen w flt true 6 (close 4 (close 3 t)) = Handle f t').
  { intros l A I. apply A in I as [I|I]; [|exfalso; eapply I; reflexivity]. injection I as -> -> -> ->. auto. }
  destruct (negb (im_ctors_return im)); [|destruct (negb (im_init im)); [|destruct (negb (im_init_returns im)); [|destruct (negb (im_call im))]]];
    cbn [snd app]; apply G; cbn [In]; intros e X; intuition (subst; auto; right; discriminate).
Qed.

(** C70: whatever happens, in any build, when code of the library first runs,
    the handler for trapped calls is installed and the descriptors of the heap
    and the pagemap are closed, the others being as the process got them. *)
Theorem closed_before_library_code : forall w t f flt h t',
  In (LibraryCode f flt h t') (snd (main w t)) -> h = true /\ without_heap t t'.
Proof.
  intros w t f flt h t' I. apply main_reaches in I as (_ & -> & L). split; [reflexivity|].
  apply fdlopen_handle in L as [L _]. intros n. rewrite L, !get_close.
  destruct (Z.eqb_spec n 3), (Z.eqb_spec n 4); cbn [orb]; subst; auto; try lia.
Qed.
Print Assumptions closed_before_library_code.

(** C70: with assert compiled in, the whole filter is in force by then. *)
Theorem filtered_before_library_code : forall w t f flt h t',
  w_asserts w = true -> In (LibraryCode f flt h t') (snd (main w t)) -> flt = Some (policy (w_self w)).
Proof.
  intros w t f flt h t' A I. apply main_reaches in I as (P & _). rewrite A in P.
  eapply seccomp_asserts_fail_closed. exact P.
Qed.
Print Assumptions filtered_before_library_code.

(** C70: with the whole filter in force the code that runs is that of the file
    the host put at descriptor 6, whatever the kernel or the host would answer
    for that name. *)
Theorem runs_the_hosts_library : forall w t f h t',
  int_range (w_self w) -> w_openat w = true ->
  In (LibraryCode f (Some (policy (w_self w))) h t') (snd (main w t)) ->
  exists d, get t 6 = Some d /\ f = file d.
Proof.
  intros w t f h t' S O I. apply main_reaches in I as (_ & -> & L).
  apply fdlopen_handle in L as (_ & t1 & r & d & L & R & D & ->). rewrite O in L. unfold sys_openat in L. rewrite sys_openat_full in L.
  cbn [linker_open] in L. rewrite O in L. 
  assert (N : names_descriptor (w_self w) 6 (fdlopen_path (w_self w) 6)) by (apply fdlopen_path_names; [exact S|unfold int_range; lia]).
  rewrite <- (app_nil_r (fdlopen_path (w_self w) 6)), (own_descriptor_of _ _ _ [] S N) in L by apply no_digit_nil.
  unfold dup, open_file in L. rewrite !get_close in L. cbn [Z.eqb Pos.eqb] in L.
  destruct (get t 6) as [e|] eqn:E; cbn [option_map] in L; [|injection L as <- <-; lia].
  destruct (_ <? _)%nat; injection L as <- <-; [|lia]. rewrite get_set_nat, Z.eqb_refl in D. injection D as <-.
  exists e. auto.
Qed.
Print Assumptions runs_the_hosts_library.

Lemma main_shape w t :
  (snd (main w t) = [] /\ fst (main w t) <> Serving /\ fst (main w t) <> TakenOver) \/
  exists f flt t' im, w_image w f = Some im /\
   ((snd (main w t) = [LibraryCode f flt true t'] /\ fst (main w t) <> Serving) \/
    (snd (main w t) = [LibraryCode f flt true t'; InitCode f] /\ fst (main w t) <> Serving /\ im_ctors_return im = true /\ im_init im = true) \/
    (main w t = (Serving, [LibraryCode f flt true t'; InitCode f; Told]) /\ im_good im = true /\ im_ctors_return im = true /\ im_init im = true /\
     im_init_returns im = true /\ im_call im = true)).
Proof.
  assert (LN : forall w flt h fd t f t', fdlopen w flt h fd t = Handle f t' -> forall im, w_image w f = Some im -> im_good im = true).
  { clear. intros w flt h fd t f t' L im I. unfold fdlopen in L. destruct (negb (w_memory w)); [discriminate|].
    destruct (sys w flt h _ _); [| |discriminate]; (destruct (linker_open _ _ _ _) as [t1 r]; destruct (r <? 0); [discriminate|];
      destruct (get t1 r) as [d|]; [|discriminate]; destruct (w_image w (file d)) as [im'|] eqn:J; [|discriminate];
      destruct (im_good im') eqn:K; [|discriminate]; injection L as <- <-; congruence). }
  unfold main. destruct (apply_policy _ _ _ _ _) as [fl| | | |] eqn:P; try (left; cbn; repeat split; congruence).
  unfold after_policy.
  destruct (sys_own w fl false sys_rt_sigaction [SIGSYS] P eq_refl) as [->| ->]; [|left; cbn; repeat split; congruence].
  destruct (sys_own w fl true sys_close [SharedMemRegion] P eq_refl) as [->| ->]; [|left; cbn; repeat split; congruence].
  destruct (sys_own w fl true sys_close [PageMapPage] P eq_refl) as [->| ->]; [|left; cbn; repeat split; congruence].
  cbn [do_close]. unfold SharedMemRegion, PageMapPage, MainLibrary.
  destruct (w_asserts w && negb (w_heap_ok w)); [left; cbn; repeat split; congruence|].
  destruct (fdlopen w fl true 6 (close 4 (close 3 t))) as [| |t0|f0 t0] eqn:L; try (left; cbn; repeat split; congruence).
  destruct (w_image w f0) as [im|] eqn:I; [|left; cbn; repeat split; congruence]. right. exists f0, fl, t0, im. split; [exact I|].
  pose proof (LN _ _ _ _ _ _ _ L _ I) as G.
  destruct (im_ctors_return im); cbn [negb]; [|left; cbn; split; congruence].
  destruct (im_init im); cbn [negb]; [|left; cbn; split; congruence].
  destruct (im_init_returns im); cbn [negb]; [|right; left; cbn; repeat split; congruence].
  destruct (im_call im); cbn [negb]; [|right; left; cbn; repeat split; congruence].
  right. right. cbn. repeat split; auto.
Qed.

(** C70: the host is told that the library is loaded only by a process that
    goes on to serve calls, and only after the library was loaded from a file
    that exports sandbox_init and sandbox_call and sandbox_init has returned. *)
Theorem told_only_when_ready : forall w t,
  (In Told (snd (main w t)) <-> fst (main w t) = Serving) /\
  (fst (main w t) = Serving -> exists f flt t' im,
     snd (main w t) = [LibraryCode f flt true t'; InitCode f; Told] /\
     w_image w f = Some im /\ im_good im = true /\ im_init im = true /\ im_init_returns im = true /\ im_call im = true).
Proof.
  intros w t. destruct (main_shape w t) as [(E & F & _)|(f & flt & t' & im & J & [(E & F)|[(E & F & _)|(E & A1 & A2 & A3 & A4 & A5)]])].
  - rewrite E. split; [split; [intros []|intros X; contradiction]|intros X; contradiction].
  - rewrite E. split; [split; [intros [X|[]]; discriminate|intros X; contradiction]|intros X; contradiction].
  - rewrite E. split; [split; [intros [X|[X|[]]]; discriminate|intros X; contradiction]|intros X; contradiction].
  - rewrite E. cbn [fst snd]. split; [split; auto; intros _; cbn; auto|]. intros _. exists f, flt, t', im. auto 10.
Qed.
Print Assumptions told_only_when_ready.

(** C70: when nothing goes wrong the process serves calls with the library the
    host gave it. *)
Theorem smooth_start_serves : forall w t d,
  get t 6 = Some d -> smooth w t (file d) ->
  exists t', main w t = (Serving, [LibraryCode (file d) (Some (policy (w_self w))) true t'; InitCode (file d); Told]).
Proof.
  intros w t d D (B & I & A & L & S & Hp & M & O & R & Im).
  assert (P : apply_policy (w_asserts w) (w_init_ok w) (w_add_ok w) (w_load_ok w) (w_self w) = Ret (Some (policy (w_self w)))).
  { unfold apply_policy, install. rewrite I, L. cbn [negb]. generalize (policy (w_self w)). intros rs.
    assert (G : forall rs i, add_rules (w_asserts w) (w_add_ok w) i rs = Ret rs).
    { clear - A. induction rs as [|r rs IH]; intros i; cbn [add_rules]; [reflexivity|]. rewrite A, IH. reflexivity. }
    rewrite G. reflexivity. }
  unfold main. rewrite P. unfold after_policy. rewrite !sys_own_full by reflexivity. cbn [do_close].
  rewrite Hp. cbn [negb]. rewrite andb_false_r. unfold fdlopen. rewrite M, O. cbn [negb]. unfold sys_openat. rewrite sys_openat_full.
  cbn [linker_open]. rewrite O. unfold MainLibrary.
  assert (N : names_descriptor (w_self w) 6 (fdlopen_path (w_self w) 6)) by (apply fdlopen_path_names; [exact S|unfold int_range; lia]).
  pose proof (own_descriptor_of _ _ _ [] S N) as Q. rewrite app_nil_r in Q. rewrite Q by apply no_digit_nil.
  unfold dup, open_file, SharedMemRegion, PageMapPage. rewrite !get_close. cbn [Z.eqb Pos.eqb]. rewrite D. cbn [option_map].
  destruct (Nat.ltb_spec (lowest (close 4 (close 3 t))) (w_limit w)); [|lia].
  destruct (Z.ltb_spec (Z.of_nat (lowest (close 4 (close 3 t)))) 0); [lia|].
  rewrite get_set_nat, Z.eqb_refl. cbn [inherit file]. rewrite Im. cbn [im_good]. rewrite Im. cbn. eexists. reflexivity.
Qed.
Print Assumptions smooth_start_serves.

(** C70: put together with what the host does (C38): when code of the library
    first runs, it is the library the host opened, and the open descriptors are
    exactly the standard ones, the two sockets and the library. *)
Theorem new_sandbox_confined : forall debug limit fuel pagemap lib reopen h t p t1 h1 w f flt hd t',
  host_has t pagemap h p -> room limit t -> (10 < fuel)%nat ->
  start_child debug fuel limit pagemap (Some lib) reopen h t = Ret (Started t1 h1) ->
  w_asserts w = true -> int_range (w_self w) -> w_openat w = true ->
  In (LibraryCode f flt hd t') (snd (main w t1)) ->
  f = file lib /\ flt = Some (policy (w_self w)) /\ hd = true /\
  get t' 5 = same_open (p_sock p) /\ get t' 6 = same_open lib /\ get t' 7 = same_open (p_rpc p) /\
  (forall n d, get t' n = Some d -> n = 5 \/ n = 6 \/ n = 7 \/ 0 <= n <= 2).
Proof.
  intros debug limit fuel pagemap lib reopen h t p t1 h1 w f flt hd t' HH R F E A S O I.
  destruct (child_descriptor_layout debug limit fuel pagemap lib reopen h t p HH R F) as (t2 & h2 & E2 & L).
  rewrite E2 in E. injection E as <- <-. destruct L as (L3 & L4 & L5 & L6 & L7 & L8 & _).
  pose proof (filtered_before_library_code w t2 f flt hd t' A I) as ->.
  destruct (closed_before_library_code w t2 _ _ _ _ I) as [-> C].
  destruct (runs_the_hosts_library w t2 f _ t' S O I) as (d & D & ->).
  split; [unfold same_open in L6; rewrite L6 in D; injection D as <-; reflexivity|]. split; [reflexivity|]. split; [reflexivity|].
  rewrite !C. cbn [Z.eqb Pos.eqb orb]. split; [exact L5|]. split; [exact L6|]. split; [exact L7|].
  intros n e G. pose proof (get_pos _ _ _ G). rewrite C in G. destruct (Z.eqb_spec n 3); [discriminate|]. destruct (Z.eqb_spec n 4); [discriminate|].
  cbn [orb] in G. destruct (Z_lt_le_dec n 8); [lia|]. rewrite L8 in G by lia. discriminate.
Qed.
Print Assumptions new_sandbox_confined.

(** C70, limit: in a release build whose filter does not load, everything goes
    on without one, and what is loaded is whatever the kernel has under that
    name. *)
Theorem filtered_in_release_refuted : forall w t f,
  w_asserts w = false -> w_init_ok w && w_load_ok w = false -> w_memory w = true ->
  (lowest (close 4 (close 3 t)) < w_limit w)%nat ->
  option_map file (w_kernel w (fdlopen_path (w_self w) 6)) = Some f ->
  w_image w f = Some (Image true true true true true) ->
  exists t', main w t = (Serving, [LibraryCode f None true t'; InitCode f; Told]).
Proof.
  intros w t f A B M R K Im. destruct (seccomp_release_fails_open _ (w_add_ok w) _ (w_self w) B) as (flt & P & Fl).
  unfold main. rewrite A, P.
  assert (flt = None) as ->.
  { destruct flt as [rs|]; [|reflexivity]. specialize (Fl (Sysc false 0 [])). discriminate. }
  unfold after_policy. cbn [sys do_close]. rewrite A. cbn [andb]. unfold fdlopen. rewrite M. cbn [negb sys linker_open].
  unfold MainLibrary, SharedMemRegion, PageMapPage. destruct (w_kernel w _) as [d|]; [|discriminate]. injection K as <-.
  unfold open_file. destruct (Nat.ltb_spec (lowest (close 4 (close 3 t))) (w_limit w)); [|lia].
  destruct (Z.ltb_spec (Z.of_nat (lowest (close 4 (close 3 t)))) 0); [lia|].
  rewrite get_set_nat, Z.eqb_refl, Im. cbn [im_good]. rewrite Im. cbn. eexists. reflexivity.
Qed.
Print Assumptions filtered_in_release_refuted.

(** C70, limit: a C library whose linker opens files with open instead of
    openat gets the host's answer instead; a host that does not export that
    name makes the sandbox process give up. *)
Theorem old_linker_asks_host : forall w t,
  w_openat w = false -> w_host w (fdlopen_path (w_self w) 6) = None -> w_asserts w = true ->
  fst (main w t) = Aborted \/ fst (main w t) = ExitCode 1.
Proof.
  intros w t O Hn A. unfold main. destruct (apply_policy _ _ _ _ _) as [fl| | | |] eqn:P; auto.
  rewrite A in P. apply seccomp_asserts_fail_closed in P as ->. unfold after_policy. rewrite !sys_own_full by reflexivity. cbn [do_close].
  destruct (w_asserts w && negb (w_heap_ok w)); auto. unfold fdlopen. destruct (w_memory w); cbn [negb]; auto.
  rewrite O. assert (X : sys w (Some (policy (w_self w))) true sys_open [] = Emulated).
  { unfold sys, decide_build. cbn [sc_native sc_nr]. set (c := Sysc true sys_open []). change sys_open with (sc_nr c).
    rewrite find_about, about_policy. reflexivity. }
  rewrite X. cbn [linker_open]. rewrite O. unfold MainLibrary. rewrite Hn. cbn [open_file]. destruct (get _ FDSocket); auto.
Qed.
Print Assumptions old_linker_asks_host.

(** C45, limit: when the descriptor cannot be duplicated, for whatever reason,
    the program is told EPERM (1). *)
Theorem own_descriptor_failure_is_eperm : forall shm hi alloc fuel H dup sp st f pid fd s p,
  int_range pid -> int_range fd -> names_descriptor pid fd s -> cstring_at (cs_mem st) p s -> p <> 0 ->
  (List.length s < fuel)%nat -> f_code f = 1 -> f_sysno f = 257 -> argument f 1 = p -> dup fd = -1 ->
  exists f', emulate shm hi alloc fuel H (proc_prefix pid) dup sp st f = Ret (st, f') /\ f_rax f' = wrap (- 1).
Proof.
  intros shm hi alloc fuel H dup sp st f pid fd s p P F N C P0 L Fc Fn Fa D.
  rewrite <- (app_nil_r s) in C, L.
  destruct (own_descriptor_opened shm hi alloc fuel H dup sp st f pid fd s [] p) as (f' & E & R & _); auto using no_digit_nil; [lia|].
  exists f'. rewrite R, D. auto.
Qed.
Print Assumptions own_descriptor_failure_is_eperm.

(** ** Concrete cases: a process 4242 started by a host with the usual
    descriptors; the library is file 77. *)
Definition demo_world (asserts load_ok : bool) : world :=
  World asserts false true (fun _ => true) load_ok 4242 true true 64 true (fun _ => Some (Desc 66 false false)) (fun _ => None)
    (fun f => if f =? 77 then Some (Image true true true true true) else if f =? 66 then Some (Image true true true true true) else None).
Definition demo_table : table :=
  [Some (Desc 0 true false); Some (Desc 1 true false); Some (Desc 2 true false); Some (Desc 33 true false);
   Some (Desc 44 false false); Some (Desc 55 true false); Some (Desc 77 false false); Some (Desc 88 true false)].
Example main_ex_smooth : smooth (demo_world true true) demo_table 77.
Proof.
  unfold smooth. repeat split; try reflexivity; try (unfold int_range; cbn; lia).
  change (lowest (close 4 (close 3 demo_table))) with 3%nat. cbn. lia.
Qed.
Example main_ex_path : fdlopen_path 4242 6 = tx "/proc/4242/fd/6" /\ names_descriptor 4242 6 (tx "/proc/4242/fd/6").
Proof. split; [reflexivity|]. apply (fdlopen_path_names 4242 6); unfold int_range; lia. Qed.
Example main_ex_serves : fst (main (demo_world true true) demo_table) = Serving /\
  exists t', In (LibraryCode 77 (Some (policy 4242)) true t') (snd (main (demo_world true true) demo_table)).
Proof.
  destruct (smooth_start_serves (demo_world true true) demo_table (Desc 77 false false) eq_refl main_ex_smooth) as (t' & E).
  rewrite E. split; [reflexivity|]. exists t'. left. reflexivity.
Qed.
Example main_ex_release : exists t', main (demo_world false false) demo_table = (Serving, [LibraryCode 66 None true t'; InitCode 66; Told]).
Proof.
  apply filtered_in_release_refuted; try reflexivity.
  change (lowest (close 4 (close 3 demo_table))) with 3%nat. cbn [demo_world w_limit]. lia.
Qed.
