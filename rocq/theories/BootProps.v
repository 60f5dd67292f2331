(** C68: a new sandbox process finds its heap where the host has it. *)
From Coq Require Import String Ascii List ZArith Lia Bool.
From Verif Require Import Base CheckModel MapModel MapProof BootModel BootSpec.
Import ListNotations.
Open Scope Z_scope.

(** ** The environment *)

(** The sandbox's environment is the description of the heap, on FreeBSD with the
    list of library descriptors: nothing of the host's environment reaches it. *)
Theorem child_environment : forall p host addr size, is_word addr -> is_word size ->
  exists loc, parent_location addr size = Ret loc /\
  child_environ p host addr size =
  Ret (loc :: match p with PCapsicum => [tx "LD_LIBRARY_PATH_FDS=8:9:10"] | _ => [] end).
Proof.
  intros p host addr size A S. exists (location_text addr size). split; [apply parent_location_eq|].
  unfold child_environ. rewrite parent_location_eq. destruct p; reflexivity.
Qed.
Print Assumptions child_environment.

(** The process ends if the first variable of that name has no colon. *)
Lemma digits_suffix : forall s v w rest, digits v s = (w, rest) -> exists front, s = front ++ rest.
Proof.
  induction s as [|c s IH]; intros v w rest E; cbn in E.
  - injection E as _ <-. exists []. reflexivity.
  - destruct (hex_value c).
    + apply IH in E as [f ->]. exists (c :: f). reflexivity.
    + injection E as _ <-. exists []. reflexivity.
Qed.
Lemma skip_space_suffix s : exists front, s = front ++ skip_space s.
Proof.
  induction s as [|c s [f IH]]; [exists []; reflexivity|]. cbn [skip_space]. destruct (is_space c).
  - exists (c :: f). cbn. f_equal. exact IH.
  - exists []. reflexivity.
Qed.
Lemma strtoull_suffix s : exists front, s = front ++ snd (strtoull16 s).
Proof.
  unfold strtoull16. destruct (skip_space_suffix s) as [f0 E0].
  set (t := skip_space s) in *. clearbody t.
  destruct (match t with
    | c :: r => if ascii_dec c "-" then (true, r) else if ascii_dec c "+" then (false, r) else (false, t)
    | [] => (false, t) end) as [neg t1] eqn:E1.
  assert (X1 : exists f, t = f ++ t1).
  { destruct t as [|c t]; [injection E1 as _ <-; exists []; reflexivity|].
    destruct (ascii_dec c "-"); [injection E1 as _ <-; exists [c]; reflexivity|].
    destruct (ascii_dec c "+"); [injection E1 as _ <-; exists [c]; reflexivity|].
    injection E1 as _ <-. exists []. reflexivity. }
  clear E1. destruct X1 as [f1 E1].
  match goal with |- context [starts_with_digit ?t2] => assert (X2 : exists f, t1 = f ++ t2) end.
  { destruct t1 as [|c [|d r]]; [exists []; reflexivity|exists []; reflexivity|].
    destruct (ascii_dec c "0"); [|exists []; reflexivity].
    match goal with |- context [if ?b then r else _] => destruct b end; [exists [c; d]|exists []]; reflexivity. }
  destruct X2 as [f2 E2].
  match goal with |- context [starts_with_digit ?t2] => set (t' := t2) in *; clearbody t' end.
  destruct (starts_with_digit t'); [|exists []; reflexivity].
  destruct (digits 0 t') as [v rest] eqn:E3. apply digits_suffix in E3 as [f3 E3]. cbn [snd].
  exists (f0 ++ f1 ++ f2 ++ f3). rewrite E0, E1, E2, E3, !app_assoc. reflexivity.
Qed.
Lemma strip_prefix_spec : forall p s v, strip_prefix p s = Some v -> s = p ++ v.
Proof.
  induction p as [|c p IH]; intros s v E; cbn in E; [injection E as ->; reflexivity|].
  destruct s as [|d s]; [discriminate|]. destruct (ascii_dec c d) as [->|]; [|discriminate].
  cbn. f_equal. apply IH. assumption.
Qed.
Theorem garbled_location_ends : forall before value after,
  Forall (fun e => ~ sets (tx "SANDBOX_LOCATION=") e) before -> ~ In ":"%char value ->
  bootstrap_location (before ++ (tx "SANDBOX_LOCATION=" ++ value) :: after) = Aborts.
Proof.
  intros before value after F N. unfold bootstrap_location. fold location_name in *. rewrite find_location_skip.
  2:{ eapply Forall_impl; [|exact F]. intros e X. destruct (strip_prefix location_name e) as [v|] eqn:E; [|reflexivity].
      exfalso. apply X. exists v. apply strip_prefix_spec. assumption. }
  cbn [find_location]. rewrite strip_prefix_app.
  destruct (strtoull_suffix value) as [f E]. destruct (strtoull16 value) as [addr stop]. cbn [snd] in E.
  destruct stop as [|c stop]; [reflexivity|]. destruct (ascii_dec c colon) as [->|_]; [|reflexivity].
  exfalso. apply N. rewrite E. apply in_or_app. right. left. reflexivity.
Qed.
Print Assumptions garbled_location_ends.

Lemma reads_back addr size after : is_word addr -> is_word size -> addr <> 0 -> size <> 0 ->
  bootstrap_location (location_text addr size :: after) = Ret (addr, size).
Proof.
  intros A S NA NS. unfold bootstrap_location. rewrite find_location_text by assumption. cbn [obind].
  destruct (Z.eqb_spec addr 0); [contradiction|]. destruct (Z.eqb_spec size 0); [contradiction|]. reflexivity.
Qed.
Lemma child_env_eq p host addr size : child_environ p host addr size =
  Ret (location_text addr size :: match p with PCapsicum => [tx "LD_LIBRARY_PATH_FDS=8:9:10"] | _ => [] end).
Proof. unfold child_environ. rewrite parent_location_eq. destruct p; reflexivity. Qed.

(** ** Mapping *)

Lemma Ret_inj {A} (a b : A) : Ret a = Ret b -> a = b.
Proof. congruence. Qed.

Lemma look_put sp a n o w x :
  look (put sp a n o w) x = if covers (Mapping a n o 0 w) x then Some (o, x - a, w) else look sp x.
Proof. unfold look, put. cbn [find]. destruct (covers _ x); reflexivity. Qed.

Lemma occupied_look sp a n x y : occupied sp a n = false -> look sp x = Some y -> a <= x < a + n -> False.
Proof.
  intros O L H. unfold look in L. destruct (find _ sp) as [m|] eqn:F; [|discriminate].
  apply find_some in F as [I C]. unfold occupied in O. assert (X : existsb (fun m => (m_at m <? a + n) && (a <? m_at m + m_len m) && (0 <? m_len m)) sp = true).
  { apply existsb_exists. exists m. split; [assumption|]. unfold covers in C. apply andb_prop in C as [C1 C2].
    rewrite !andb_true_iff, !Z.ltb_lt. apply Z.leb_le in C1. apply Z.ltb_lt in C2. lia. }
  congruence.
Qed.

Lemma free_not_occupied sp a n : proper sp -> 0 < n -> free_range sp a n -> occupied sp a n = false.
Proof.
  intros P N F. unfold occupied. destruct (existsb _ sp) eqn:E; [|reflexivity]. exfalso.
  apply existsb_exists in E as (m & I & C). rewrite !andb_true_iff, !Z.ltb_lt in C.
  assert (X : exists x, a <= x < a + n /\ m_at m <= x < m_at m + m_len m) by (exists (Z.max a (m_at m)); lia).
  destruct X as (x & R & M). specialize (F x R). unfold look in F. destruct (find _ sp) eqn:Fi; [discriminate|].
  apply (find_none _ _ Fi) in I. unfold covers in I. apply andb_false_iff in I as [I|I]; [apply Z.leb_gt in I|apply Z.ltb_ge in I]; lia.
Qed.
Lemma occupied_free sp a n : occupied sp a n = false -> free_range sp a n.
Proof. intros O x R. destruct (look sp x) eqn:L; [|reflexivity]. exfalso. eapply occupied_look; eauto. Qed.

Lemma look_put_kept sp a n o w x y : occupied sp a n = false -> look sp x = Some y -> look (put sp a n o w) x = Some y.
Proof.
  intros O L. rewrite look_put. destruct (covers _ x) eqn:C; [|assumption]. exfalso.
  unfold covers in C. cbn in C. apply andb_prop in C as [C1 C2]. apply Z.leb_le in C1. apply Z.ltb_lt in C2.
  eapply occupied_look; eauto.
Qed.
Lemma look_put_in sp a n o w x : a <= x < a + n -> look (put sp a n o w) x = Some (o, x - a, w).
Proof.
  intros R. rewrite look_put. replace (covers _ x) with true; [reflexivity|].
  symmetry. unfold covers. cbn. rewrite andb_true_iff, Z.leb_le, Z.ltb_lt. lia.
Qed.

(** Once bootstrap has finished on a kernel that does not replace mappings, every
    address of the host's heap is the same byte of the heap in the sandbox, and
    the bounds the sandbox checks against are those of the heap.  The pagemap is
    there, but cannot be written.  Nothing was overwritten. *)
Theorem heap_at_the_same_place : forall p release host k pm addr size sp c,
  is_word addr -> is_word size -> addr <> 0 -> size <> 0 -> k_fixing k = NoReplace ->
  obind (child_environ p host addr size) (fun env =>
    bootstrap release k (new_header addr size) pm env sp) = Ret c ->
  heap_at c addr size /\ c_shared c = addr /\ c_start c = addr /\ c_end c = wrap (addr + size) /\
  nothing_replaced sp c /\
  (forall x, c_pagemap c <= x < c_pagemap c + pm -> look (c_space c) x = Some (Pagemap, x - c_pagemap c, false)).
Proof.
  intros p release host k pm addr size sp c A S NA NS K E. rewrite child_env_eq in E. cbn [obind] in E.
  unfold bootstrap in E.
  pose proof (fun l => reads_back addr size l A S NA NS) as R. rewrite R in E. cbn [obind] in E.
  unfold mmap_heap in E. rewrite K in E. destruct (negb (k_grants k)); [discriminate|].
  destruct (addr mod k_page k =? 0); [|discriminate]. cbn [andb] in E.
  destruct (occupied sp addr size) eqn:O; [discriminate|]. cbn [negb] in E.
  unfold mmap_pagemap in E. destruct (k_pagemap k) as [b|]; [|destruct release; discriminate].
  destruct (occupied (put sp addr size Heap true) b pm) eqn:O2; [destruct release; discriminate|].
  injection E as <-. cbn [c_shared c_start c_end c_pagemap c_space h_start h_end new_header].
  split; [|split; [reflexivity|split; [reflexivity|split; [reflexivity|split]]]].
  - intros x X. cbn [c_space]. apply look_put_kept; [assumption|]. apply look_put_in. assumption.
  - intros x y X. cbn [c_space]. apply look_put_kept; [assumption|]. apply look_put_kept; assumption.
  - intros x X. apply look_put_in. assumption.
Qed.
Print Assumptions heap_at_the_same_place.

(** It finishes if the place is free and the kernel maps both objects, and ends
    the process in every other case. *)
Theorem heap_found_or_ended : forall p release host k pm addr size sp,
  is_word addr -> is_word size -> addr <> 0 -> size <> 0 -> k_fixing k = NoReplace -> proper sp -> 0 < pm ->
  let run := obind (child_environ p host addr size) (fun env =>
    bootstrap release k (new_header addr size) pm env sp) in
  let good := k_grants k = true /\ addr mod k_page k = 0 /\ free_range sp addr size /\
    exists b, k_pagemap k = Some b /\ free_range sp b pm /\ (b + pm <= addr \/ addr + size <= b) in
  (good -> exists c, run = Ret c) /\ (~ good -> run = Aborts).
Proof.
  intros p release host k pm addr size sp A S NA NS K P PM run good.
  assert (E : run = match mmap_heap k sp addr size with None => Aborts | Some (ptr, sp) =>
    match mmap_pagemap k sp pm with
    | Some (base, sp) => Ret (Child ptr addr (wrap (addr + size)) base sp) | None => Aborts end end).
  { unfold run. rewrite child_env_eq. cbn [obind]. unfold bootstrap.
    pose proof (fun l => reads_back addr size l A S NA NS) as R. rewrite R. cbn [obind].
    destruct (mmap_heap k sp addr size) as [[ptr sp']|]; [|reflexivity].
    destruct (mmap_pagemap k sp' pm) as [[b sp'']|]; [reflexivity|]. destruct release; reflexivity. }
  clearbody run. subst run. assert (S0 : 0 < size) by (destruct S; lia).
  unfold mmap_heap. rewrite K. split.
  - intros (G & M & F & b & B & FB & D). rewrite G, M. cbn [negb Z.eqb andb].
    rewrite (free_not_occupied sp addr size P S0 F). cbn [negb]. unfold mmap_pagemap. rewrite B.
    rewrite free_not_occupied; [eexists; reflexivity| |assumption|].
    + constructor; [cbn; lia|assumption].
    + intros x X. rewrite look_put. destruct (covers _ x) eqn:C; [|apply FB; assumption].
      unfold covers in C. cbn in C. apply andb_prop in C as [C1 C2]. apply Z.leb_le in C1. apply Z.ltb_lt in C2. lia.
  - intros N. destruct (k_grants k) eqn:G; [|reflexivity]. cbn [negb].
    destruct (Z.eqb_spec (addr mod k_page k) 0) as [M|M]; [|reflexivity]. cbn [andb].
    destruct (occupied sp addr size) eqn:O; [reflexivity|]. cbn [negb]. unfold mmap_pagemap.
    destruct (k_pagemap k) as [b|] eqn:B; [|reflexivity].
    destruct (occupied (put sp addr size Heap true) b pm) eqn:O2; [reflexivity|]. exfalso. apply N.
    split; [reflexivity|]. split; [assumption|]. split; [apply occupied_free; assumption|]. exists b. split; [reflexivity|].
    pose proof (occupied_free _ _ _ O2) as F2. split.
    + intros x X. specialize (F2 x X). rewrite look_put in F2. destruct (covers _ x); [discriminate|assumption].
    + destruct (Z_le_gt_dec (b + pm) addr) as [|L1]; [left; assumption|]. right. destruct (Z_le_gt_dec (addr + size) b) as [|L2]; [assumption|].
      exfalso. assert (X : exists x, b <= x < b + pm /\ addr <= x < addr + size) by (exists (Z.max b addr); lia).
      destruct X as (x & X1 & X2). specialize (F2 x X1). rewrite look_put_in in F2 by assumption. discriminate.
Qed.
Print Assumptions heap_found_or_ended.

(** Limits.  On a kernel that takes the address as a hint the sandbox goes on
    when something is in the way, with its heap elsewhere: pointers of the host
    then mean something else in the sandbox.  The result of mmap is not compared
    with the address. *)
Theorem heap_moved_by_old_kernels : forall release k pm addr size sp b env,
  is_word addr -> is_word size -> addr <> 0 -> size <> 0 -> k_fixing k = AsHint ->
  k_grants k = true -> occupied sp addr size = true -> occupied sp (k_elsewhere k) size = false ->
  k_pagemap k = Some b -> occupied (put sp (k_elsewhere k) size Heap true) b pm = false ->
  child_environ PSeccomp [] addr size = Ret env ->
  exists c, bootstrap release k (new_header addr size) pm env sp = Ret c /\
    c_shared c = k_elsewhere k /\ c_shared c <> addr /\ c_start c = addr.
Proof.
  intros release k pm addr size sp b env A S NA NS K G O F B O2 E. rewrite child_env_eq in E. apply Ret_inj in E. subst env.
  unfold bootstrap.
  pose proof (fun l => reads_back addr size l A S NA NS) as R. rewrite R. cbn [obind].
  unfold mmap_heap. rewrite K, G, O. cbn [negb]. rewrite andb_false_r, F. unfold mmap_pagemap. rewrite B, O2.
  eexists. split; [reflexivity|]. cbn. split; [reflexivity|]. split; [|reflexivity]. intros X. rewrite X in F. congruence.
Qed.
Print Assumptions heap_moved_by_old_kernels.

(** Where neither flag exists, the heap replaces whatever the sandbox's process
    had at its place. *)
Theorem heap_replaces_other_memory : forall release k pm addr size sp env c x y,
  is_word addr -> is_word size -> addr <> 0 -> size <> 0 -> k_fixing k = Replace ->
  child_environ PNoOp [] addr size = Ret env ->
  bootstrap release k (new_header addr size) pm env sp = Ret c ->
  addr <= x < addr + size -> look sp x = Some y -> look (c_space c) x = Some (Heap, x - addr, true).
Proof.
  intros release k pm addr size sp env c x y A S NA NS K E H X L. rewrite child_env_eq in E. apply Ret_inj in E. subst env.
  unfold bootstrap in H.
  pose proof (fun l => reads_back addr size l A S NA NS) as R. rewrite R in H. cbn [obind] in H.
  unfold mmap_heap in H. rewrite K in H. destruct (negb (k_grants k)); [discriminate|].
  destruct (addr mod k_page k =? 0); [|discriminate]. unfold mmap_pagemap in H.
  destruct (k_pagemap k) as [b|]; [|destruct release; discriminate].
  destruct (occupied _ b pm) eqn:O2; [destruct release; discriminate|]. injection H as <-. cbn [c_space].
  apply look_put_kept; [assumption|]. apply look_put_in. assumption.
Qed.
Print Assumptions heap_replaces_other_memory.

(** ** Concrete cases *)

Definition boot_space : space := [Mapping 4194304 8192 (Other 1) 0 false].
Definition boot_kernel := Kernel NoReplace 4096 true 8589934592 (Some 140737488355328).
Example boot_runs : exists c,
  obind (child_environ PCapsicum [tx "HOME=/root"] 1099511627776 4294967296) (fun env =>
    bootstrap true boot_kernel (new_header 1099511627776 4294967296) 65536 env boot_space) = Ret c /\
  look (c_space c) 1099511627784 = Some (Heap, 8, true) /\ look (c_space c) 4194305 = Some (Other 1, 1, false).
Proof. eexists. split; [vm_compute; reflexivity|]. split; vm_compute; reflexivity. Qed.
Example boot_garbled : bootstrap_location [tx "SANDBOX_LOCATION=10-20"] = Aborts.
Proof. vm_compute. reflexivity. Qed.
Example boot_good : let k := boot_kernel in
  k_grants k = true /\ 1099511627776 mod k_page k = 0 /\ free_range boot_space 1099511627776 4294967296 /\
  exists b, k_pagemap k = Some b /\ free_range boot_space b 65536 /\ (b + 65536 <= 1099511627776 \/ 1099511627776 + 4294967296 <= b).
Proof.
  cbn. split; [reflexivity|]. split; [reflexivity|]. split; [apply occupied_free; vm_compute; reflexivity|].
  exists 140737488355328. split; [reflexivity|]. split; [apply occupied_free; vm_compute; reflexivity|]. right. lia.
Qed.
Definition boot_old_kernel := Kernel AsHint 4096 true 8589934592 (Some 140737488355328).
Example boot_moved : occupied boot_space 4194304 4096 = true /\ occupied boot_space (k_elsewhere boot_old_kernel) 4096 = false /\
  occupied (put boot_space (k_elsewhere boot_old_kernel) 4096 Heap true) 140737488355328 65536 = false.
Proof. repeat split; vm_compute; reflexivity. Qed.
Example boot_replaced : exists c env, child_environ PNoOp [] 4194304 4096 = Ret env /\
  bootstrap true (Kernel Replace 4096 true 0 (Some 140737488355328)) (new_header 4194304 4096) 65536 env boot_space = Ret c /\
  look boot_space 4194304 = Some (Other 1, 0, false) /\ look (c_space c) 4194304 = Some (Heap, 0, true).
Proof. eexists. eexists. split; [vm_compute; reflexivity|]. split; [vm_compute; reflexivity|]. split; vm_compute; reflexivity. Qed.

(** On such a kernel all is well when the place is free. *)
Theorem heap_kept_by_old_kernels : forall p release host k pm addr size sp c,
  is_word addr -> is_word size -> addr <> 0 -> size <> 0 -> k_fixing k = AsHint -> proper sp ->
  addr mod k_page k = 0 -> free_range sp addr size ->
  obind (child_environ p host addr size) (fun env =>
    bootstrap release k (new_header addr size) pm env sp) = Ret c ->
  heap_at c addr size /\ c_shared c = addr /\ c_start c = addr /\ nothing_replaced sp c.
Proof.
  intros p release host k pm addr size sp c A S NA NS K P M F E. rewrite child_env_eq in E. cbn [obind] in E.
  unfold bootstrap in E.
  pose proof (fun l => reads_back addr size l A S NA NS) as R. rewrite R in E. cbn [obind] in E.
  assert (O : occupied sp addr size = false) by (apply free_not_occupied; auto; destruct S; lia).
  unfold mmap_heap in E. rewrite K, M, O in E. destruct (negb (k_grants k)); [discriminate|]. cbn [Z.eqb andb negb] in E.
  unfold mmap_pagemap in E. destruct (k_pagemap k) as [b|]; [|destruct release; discriminate].
  destruct (occupied (put sp addr size Heap true) b pm) eqn:O2; [destruct release; discriminate|].
  injection E as <-. cbn [c_shared c_start c_end c_pagemap c_space h_start h_end new_header].
  split; [|split; [reflexivity|split; [reflexivity|]]].
  - intros x X. cbn [c_space]. apply look_put_kept; [assumption|]. apply look_put_in. assumption.
  - intros x y X. cbn [c_space]. apply look_put_kept; [assumption|]. apply look_put_kept; assumption.
Qed.
Print Assumptions heap_kept_by_old_kernels.
Example heap_kept_ex : exists c,
  obind (child_environ PSeccomp [] 1048576 65536) (fun env =>
    bootstrap true (Kernel AsHint 4096 true 999424 (Some 8192)) (new_header 1048576 65536) 4096 env
      [Mapping 4096 4096 (Other 1) 0 true]) = Ret c.
Proof. eexists. vm_compute. reflexivity. Qed.
