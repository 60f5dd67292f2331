(** Claimed theorems about system calls of the sandboxed program, through the
    child's marshalling, the dispatcher and the host's handlers, and back
    (C24, C25). *)
From Coq Require Import String Ascii List ZArith Lia Bool.
From Verif Require Import Base PathModel PathSpec PathProof FileTreeModel FileTreeSpec FileTreeProof FileTreeProps
  RegionModel RegionSpec RegionProof DispatchModel DispatchProps HostCallsModel HostCallsSpec HostCallsProof HostCallsProps
  ChildCallsModel ChildCallsSpec ChildCallsProof ChildCallsProps.
Import ListNotations.
Open Scope Z_scope.

Lemma get_path_stable shm size hdr m p s :
  mapping_ok shm size hdr -> heap_block shm size hdr p (Z.of_nat (S (List.length s))) -> cstring_at m p s ->
  get_path (library_heap shm size hdr) (fun _ => m) true p = Ret (Some s).
Proof.
  intros M HB C. assert (Wp : is_word p) by (unfold is_word, heap_block, mapping_ok in *; lia). unfold get_path.
  destruct (strdup_out_total shm size hdr (fun _ => m) p) as [[[buf|] tr] E].
  - destruct (strdup_out_stable_some _ _ _ m _ _ _ M Wp E) as (s' & -> & C' & _).
    rewrite <- (cstring_unique _ _ _ _ C C') in *. rewrite E. cbn [obind dup_buf].
    assert (V : forall l, (forall i c, nth_error l i = Some c -> c <> nul) -> c_view (l ++ [nul]) = Some l).
    { induction l as [|c l IH]; intros H; [reflexivity|]. cbn.
      destruct (ascii_dec c nul) as [->|]; [exfalso; exact (H 0%nat nul eq_refl eq_refl)|].
      rewrite IH; [reflexivity|]. intros i d Hd. exact (H (S i) d Hd). }
    rewrite V; [reflexivity|]. intros i c Hi. apply (proj1 C i c Hi).
  - exfalso. unfold heap_block in HB. destruct (strdup_out_stable_none _ _ _ m _ _ M Wp E) as [X|[X|X]]; try lia.
    specialize (X s C). lia.
Qed.

(** Every path resolves to something. *)
Lemma resolves_total calls oks t s : host_calls calls -> run_host calls = Ret (oks, t) ->
  exists x, resolves (combine calls oks) s x.
Proof.
  intros HC RH. destruct (path_of_cstr_total s) as [p P]. destruct (parse_segments _ _ P) as (_ & segs & SG & _).
  destruct (filetree_refines_export_history _ HC) as (oks' & t' & v & RH' & _ & Hv & Lv).
  assert (oks' = oks) as -> by congruence.
  pose proof (canonicalise_fails_iff (mkPath false segs)) as F. cbn [comps] in F.
  destruct (fst (canonicalise (mkPath false segs))).
  2:{ eexists. eapply R_climbs; eauto. apply F. reflexivity. }
  assert (NX : ~ climbs_above_start segs) by (intros X; apply F in X; discriminate).
  destruct (lookup_file t' (mkPath false (plain_names segs))) as [[fd tail]|] eqn:L.
  - apply Lv in L as (_ & [[E D]|(N & q & E & D)]); cbn [comps] in *.
    + eexists. eapply R_file; eauto. exists v. eauto.
    + eexists. eapply R_below; eauto. exists v. eauto.
  - eexists. eapply R_absent; eauto. exists v. split; [exact Hv|]. split.
    + intros fd D. assert (X : lookup_file t' (mkPath false (plain_names segs)) = Some (fd, mkPath false [])) by (apply Lv; cbn [comps is_abs]; auto). congruence.
    + intros q tail fd E N D. assert (X : lookup_file t' (mkPath false (plain_names segs)) = Some (fd, mkPath false tail)) by (apply Lv; cbn [comps is_abs]; split; [auto|right; eauto]). congruence.
Qed.

Lemma path_syscall_resolves calls oks t shm size hdr m p s x handler :
  host_calls calls -> run_host calls = Ret (oks, t) ->
  mapping_ok shm size hdr -> heap_block shm size hdr p (Z.of_nat (S (List.length s))) -> cstring_at m p s ->
  resolves (combine calls oks) s x ->
  handle_path_syscall t (library_heap shm size hdr) (fun _ => m) true p [] handler
  = match x with inl e => Ret (Result (- e) None, []) | inr (fd, tail) => Ret (handler fd (mkPath false tail)) end.
Proof.
  intros HC RH M HB C R.
  assert (Wp : is_word p) by (unfold is_word, heap_block, mapping_ok in *; lia).
  assert (B : p + Z.of_nat (length s) < shm + size) by (unfold heap_block in HB; lia).
  assert (SD : forall segs, segments_of s segs -> _)
    by (intros segs SG; exact (stable_decision _ _ _ _ _ _ _ _ _ _ HC RH M Wp (proj1 HB) B C SG)).
  destruct R as [segs SG X|segs SG X (v' & Hv' & N1 & N2)|segs fd SG X (v' & Hv' & D)|segs q tail fd SG X E N (v' & Hv' & D)];
    destruct (SD segs SG) as (v & Hv & D1 & D2 & D3 & D4).
  - apply D1, X.
  - apply D2; [exact X|..]; intros; rewrite (history_determines _ _ _ Hv Hv'); eauto.
  - apply D3; [exact X|]. rewrite (history_determines _ _ _ Hv Hv'). exact D.
  - eapply D4; eauto. rewrite (history_determines _ _ _ Hv Hv'). exact D.
Qed.

Lemma host_replies shm size hdr k vfs np recv eff rq fd m takes :
  mapping_ok shm size hdr -> is_word (cr_size rq) -> is_word (cr_data rq) -> 0 <= cr_kind rq < 7 ->
  nth_error (numbering tuple_size []) (Z.to_nat (cr_kind rq)) = Some (SFn (cr_kind rq) (cr_size rq) takes) ->
  0 < cr_size rq -> heap_block shm size hdr (cr_data rq) (cr_size rq) ->
  let R := builtin_callables k vfs np (library_heap shm size hdr) m (cr_kind rq)
             (read_bytes m (cr_data rq) (Z.to_nat (cr_size rq))) (if takes then fd else None) in
  host_process k vfs np (library_heap shm size hdr) recv eff rq fd m
  = Some (HostReply (eff rq) (r_int R) (option_map recv (r_fd R))).
Proof.
  intros M W1 W2 Kr NE Pn HB R. unfold host_process.
  assert (WF : well_formed tuple_size [] shm size hdr rq (cr_kind rq) takes).
  { split; [exact NE|]. unfold heap_block in HB. lia. }
  destruct (callback_well_formed_runs_once tuple_size [] shm size hdr
    (builtin_callables k vfs np (library_heap shm size hdr) m) (fun _ => m) rq fd (cr_kind rq) takes M
    ltac:(unfold is_word, W; lia) W1 W2 WF) as (_ & RP & _).
  cbn [register_all snd] in RP.
  set (acts := handle _ _ _ _ _ _) in *. clearbody acts.
  assert (G : forall l acc, fold_left (fun acc a => match a with
       | AReply i f => Some (HostReply (eff rq) i (option_map recv f)) | _ => acc end) l acc
     = fold_left (fun (_ : option hostreply) '(i, f) => Some (HostReply (eff rq) i (option_map recv f))) (replies l) acc).
  { induction l as [|a l IH]; intros acc; [reflexivity|]. cbn [fold_left]. rewrite IH.
    destruct a; cbn [replies flat_map app fold_left]; reflexivity. }
  rewrite G, RP. reflexivity.
Qed.

(** The context: an exporting host and a child with a program string. *)
Section E.
Variables (shm size hdr : Z) (alloc : list (Z * Z) -> Z -> Z) (fuel : nat) (maxn : Z).
Variables (calls : list (list text * leaf)) (oks : list bool) (t : dir) (np : netpolicy).
Variables (k : kernel) (recv : Z -> Z) (eff : crequest -> list (Z * ascii)).
Hypothesis HC : host_calls calls.
Hypothesis RH : run_host calls = Ret (oks, t).
Hypothesis LK : linux_kernel k.
Hypothesis RV : forall f, 0 <= f -> 0 <= recv f < 2 ^ 31.

Let h := library_heap shm size hdr.
Let the_host : host := host_process k t np h recv eff.

Lemma asks_value o rq fd m fin R takes :
  mapping_ok shm size hdr -> is_word (cr_size rq) -> 0 <= cr_kind rq < 7 ->
  nth_error (numbering tuple_size []) (Z.to_nat (cr_kind rq)) = Some (SFn (cr_kind rq) (cr_size rq) takes) ->
  0 < cr_size rq -> heap_block shm size hdr (cr_data rq) (cr_size rq) ->
  asks o rq fd m fin ->
  builtin_callables k t np h m (cr_kind rq) (read_bytes m (cr_data rq) (Z.to_nat (cr_size rq)))
     (if takes then fd else None) = R ->
  - 2 ^ 31 <= r_int R < 2 ^ 31 ->
  exists st', o the_host = Ret (st', match r_fd R with Some f => recv f | None => r_int R end) /\
    fin (after_stores m (eff rq)) (cs_mem st').
Proof.
  intros M W1 Kr NE Pn HB A ER HR. specialize (A the_host).
  assert (W2 : is_word (cr_data rq)) by (unfold is_word, heap_block, mapping_ok in *; lia).
  pose proof (host_replies shm size hdr k t np recv eff rq fd m takes M W1 W2 Kr NE Pn HB) as HR0.
  cbv zeta in HR0. fold h in HR0. rewrite ER in HR0. change (host_process k t np h recv eff) with the_host in HR0.
  rewrite HR0 in A. destruct A as (st' & A1 & A2). exists st'. split; [|exact A2]. rewrite A1. f_equal. f_equal.
  unfold reply_int. cbn [hr_fd hr_word]. destruct (r_fd R); cbn [option_map]; [reflexivity|].
  rewrite int_of_eq. apply to_int32_id. exact HR.
Qed.

Lemma str_tail tail : str (mkPath false tail) = joined tail.
Proof. unfold str. cbn [is_abs comps]. apply str_loop_false. Qed.
Lemma none_left_is tail : is_empty (mkPath false tail) = none_left tail.
Proof. reflexivity. Qed.

Lemma resolves_err s e : resolves (combine calls oks) s (inl e) -> e = 22 \/ e = 2.
Proof. intros R. inversion R; auto. Qed.

(** What open should do: duplicate an exported file, or open beneath an
    exported directory; the program gets the new descriptor's number in the
    child, or the errno. *)
Definition open_result (x : Z + Z * list text) (flags mode : Z) : Z * option Z :=
  match x with
  | inl e => (-1, Some e)
  | inr (fd, tail) =>
    let op := if none_left tail then KDup fd
              else KOpenat2 fd (Some (joined tail)) (wrap flags) mode 8 in
    if 0 <=? fst (k [] op) then (recv (fst (k [] op)), None) else (-1, Some (snd (k [] op)))
  end.

(** The raw value of which a C library makes [obs]. *)
Definition raw_of (obs : Z * option Z) : Z := match snd obs with Some e => - e | None => fst obs end.
Definition plausible (obs : Z * option Z) : Prop :=
  (exists v, obs = (v, None) /\ 0 <= v < 2 ^ 31) \/ exists e, obs = (-1, Some e) /\ 0 < e <= 4095.

Lemma open_value st sp p s x flags mode :
  child_ready shm size hdr alloc maxn st sp -> program_string st maxn fuel sp p s ->
  - 2 ^ 31 <= flags < 2 ^ 31 -> 0 <= mode < 2 ^ 32 -> resolves (combine calls oks) s x ->
  plausible (open_result x flags mode) /\
  exists st', callback_open shm (shm + size) alloc fuel the_host sp st p flags mode
    = Ret (st', raw_of (open_result x flags mode)).
Proof.
  intros CR PS Hf Hm R.
  destruct (child_open_request shm size hdr alloc fuel maxn st sp p s flags mode CR PS Hm)
    as (m' & q & a & Q & A & D & C & K). bytes_of D [8; 4; 4]%nat.
  destruct CR as (MO & _).
  assert (HO : handle_open k t h (fun _ => m') true a flags mode []
    = match x with
      | inl e => Ret (Result (- e) None, [])
      | inr (fd, tail) =>
        let op := if none_left tail then KDup fd
                  else KOpenat2 fd (Some (joined tail)) (wrap flags) mode 8 in
        Ret (return_fd (k [] op), [op])
      end).
  { unfold handle_open, h. rewrite (path_syscall_resolves _ _ _ _ _ _ _ _ _ x _ HC RH MO A C R).
    destruct x as [e|[fd tail]]; [reflexivity|]. cbv zeta. pose proof (str_tail tail) as ST. rewrite ?none_left_is.
    destruct (none_left tail); cbn [negb]; unfold openat_beneath, kcall; rewrite ?ST; reflexivity. }
  assert (PL : plausible (open_result x flags mode)).
  { unfold open_result. destruct x as [e|[fd tail]].
    - right. exists e. split; [reflexivity|]. destruct (resolves_err _ _ R); lia.
    - set (op := if none_left tail then _ else _). cbv zeta. pose proof (LK [] op) as LKo.
      destruct (k [] op) as [r e] eqn:Ek. cbn [fst snd].
      destruct (Z.leb_spec 0 r).
      + left. eexists. split; [reflexivity|]. apply RV. lia.
      + right. eexists. split; [reflexivity|]. lia. }
  split; [exact PL|].
  eassert (X : exists st', _ = Ret (st', _) /\ _).
  { eapply (asks_value _ _ _ _ _ (match x with inl e => Result (- e) None | inr (fd, tail) =>
        return_fd (k [] (if none_left tail then KDup fd
                  else KOpenat2 fd (Some (joined tail)) (wrap flags) mode 8)) end) false MO); try exact K;
      cbn [cr_kind cr_size cr_data]; try exact Q; try lia; try reflexivity.
    - unfold is_word, W; lia.
    - unfold builtin_callables. change (Z.to_nat 16) with 16%nat. change (tuple_widths 0) with [8; 4; 4]%nat.
      rewrite D. change (0 =? K_Open) with true. cbv iota. rewrite to_int32_mod by exact Hf. rewrite HO.
      destruct x as [e|[fd tail]]; reflexivity.
    - destruct x as [e|[fd tail]]; [destruct (resolves_err _ _ R); cbn [r_int]; lia|].
      unfold return_fd. pose proof (LK [] (if none_left tail then KDup fd else
         KOpenat2 fd (Some (joined tail)) (wrap flags) mode 8)) as LKo.
      destruct (k [] _) as [r e]. cbn [fst snd]. destruct (0 <=? r) eqn:Z0; cbn [r_int]; unfold ENOSYS; lia. }
  destruct X as (st' & X & _). exists st'. cbv beta in X. rewrite X. f_equal. f_equal.
  unfold raw_of, open_result. destruct x as [e|[fd tail]]; [reflexivity|]. unfold return_fd. cbv zeta.
  destruct (0 <=? fst (k [] _)); reflexivity.
Qed.

Lemma plausible_posix obs : plausible obs -> syscall_return (raw_of obs) = obs.
Proof.
  intros [(v & -> & H)|(e & -> & H)]; unfold raw_of, syscall_return; cbn [fst snd].
  - replace (v <? 0) with false by lia. reflexivity.
  - replace (- e <? 0) with true by lia. do 2 f_equal. lia.
Qed.

Lemma plausible_raw obs : plausible obs -> - 4095 <= raw_of obs < 2 ^ 31.
Proof. intros [(v & -> & H)|(e & -> & H)]; unfold raw_of; cbn [fst snd]; lia. Qed.

(** The frame after emulation of a call whose observable result is [obs]. *)
Lemma plausible_frame obs f : plausible obs ->
  let f' := if to_int32 (raw_of obs) <? 0 then set_error_return f (- to_int32 (raw_of obs))
            else set_success_return f (to_int32 (raw_of obs)) in
  libc_view (f_rax f') = obs /\ f_rip f' = f_call_addr f.
Proof.
  intros P f'. pose proof (plausible_raw _ P) as R. unfold f'. rewrite to_int32_id by lia.
  destruct P as [(v & -> & H)|(e & -> & H)]; unfold raw_of in *; cbn [fst snd] in *.
  - replace (v <? 0) with false by lia. cbn [set_success_return f_rax f_rip]. split; [|reflexivity].
    rewrite wrap_small by (unfold is_word, W; lia). unfold libc_view. replace (v <? 2 ^ 63) with true by lia.
    replace (v <? 0) with false by lia. rewrite andb_false_r. reflexivity.
  - replace (- e <? 0) with true by lia. cbn [set_error_return f_rax f_rip]. split; [|reflexivity].
    replace (wrap (0 - - - e)) with (W - e).
    2:{ unfold wrap. symmetry. rewrite <- (Z.mod_small (W - e) W) by (unfold W; lia).
        rewrite <- (Z.mod_add (0 - - - e) 1 W) by (unfold W; lia). f_equal. lia. }
    unfold libc_view, W. replace (2 ^ 64 - e <? 2 ^ 63) with false by lia.
    replace (-4095 <=? 2 ^ 64 - e - 2 ^ 64) with true by lia. replace (2 ^ 64 - e - 2 ^ 64 <? 0) with true by lia.
    cbn [andb]. do 2 f_equal. lia.
Qed.

(** C24: open, called as a function.  mode counts only with O_CREAT (64). *)
Theorem open_end_to_end : forall st sp p s x flags mode,
  child_ready shm size hdr alloc maxn st sp -> program_string st maxn fuel sp p s ->
  - 2 ^ 31 <= flags < 2 ^ 31 -> 0 <= mode < 2 ^ 32 -> resolves (combine calls oks) s x ->
  exists st', posix_open shm (shm + size) alloc fuel the_host sp st p flags mode
    = Ret (st', open_result x flags (if Z.land flags 64 =? 64 then mode else 0)).
Proof.
  intros st sp p s x flags mode CR PS Hf Hm R. unfold posix_open. change o_creat with 64.
  set (md := if Z.land flags 64 =? 64 then mode else 0).
  assert (Hm' : 0 <= md < 2 ^ 32) by (unfold md; destruct (Z.land flags 64 =? 64); lia).
  destruct (open_value st sp p s x flags md CR PS Hf Hm' R) as (PL & st' & E).
  rewrite E. cbn [obind]. exists st'. rewrite plausible_posix by exact PL. reflexivity.
Qed.

(** C24: open as a trapped system call (number 2). *)
Theorem open_trap_end_to_end : forall st sp p s x flags mode proc dup f,
  child_ready shm size hdr alloc maxn st sp -> program_string st maxn fuel sp p s ->
  - 2 ^ 31 <= flags < 2 ^ 31 -> 0 <= mode < 2 ^ 32 -> resolves (combine calls oks) s x ->
  f_code f = 1 -> f_sysno f = 2 -> argument f 0 = p -> int_of (argument f 1) = flags -> argument f 2 mod 2 ^ 32 = mode ->
  exists st' f', emulate shm (shm + size) alloc fuel the_host proc dup sp st f = Ret (st', f') /\
    libc_view (f_rax f') = open_result x flags mode /\ f_rip f' = f_call_addr f.
Proof.
  intros st sp p s x flags mode proc dup f CR PS Hf Hm R Fc Fn F0 F1 F2.
  try rewrite int_of_eq in F0; try rewrite argument_reg in F0; try rewrite uint_eq in F0. try rewrite int_of_eq in F1; try rewrite argument_reg in F1; try rewrite uint_eq in F1. try rewrite int_of_eq in F2; try rewrite argument_reg in F2; try rewrite uint_eq in F2.
  destruct (open_value st sp p s x flags mode CR PS Hf Hm R) as (PL & st' & E).
  unfold emulate. rewrite Fc. cbn [Z.eqb Pos.eqb]. unfold SyscallCallbackCount.
  cbn [syscall_callback syscall_numbers nth]. rewrite Fn. cbn [Z.eqb Pos.eqb emulated].
  rewrite F0, F1, F2, E. cbn [obind]. eexists _, _. split; [reflexivity|]. apply plausible_frame. exact PL.
Qed.

(** C24: stat as a trapped system call (number 4).  [b] is the block of the
    shared heap the host fills in; its contents end up in the program's buffer. *)
Definition stat_result (x : Z + Z * list text) (b : Z) : Z * option Z :=
  match x with
  | inl e => (-1, Some e)
  | inr (fd, tail) =>
    let re := if none_left tail then k [] (KFstat fd b)
              else on_path k fd (Some (joined tail)) (fun pfd => KFstatat pfd [] b 4096) in
    observed (fst re) (snd re)
  end.

Lemma on_path_linux fd pt op : let '(r, e) := on_path k fd pt op in (r = -1 /\ 0 < e <= 4095) \/ 0 <= r < 2 ^ 31.
Proof.
  unfold on_path. pose proof (LK [] (KOpenat2 fd pt 2097152 0 8)) as L1. destruct (k [] _) as [r e] eqn:E. cbn [fst snd].
  destruct (r <? 0) eqn:Z0; [left; lia|]. pose proof (LK [KOpenat2 fd pt 2097152 0 8] (op r)) as L2. exact L2.
Qed.

Lemma observed_ok re : (let '(r, e) := re in (r = -1 /\ 0 < e <= 4095) \/ 0 <= r < 2 ^ 31) ->
  plausible (observed (fst re) (snd re)) /\ r_int (return_int re) = raw_of (observed (fst re) (snd re)) /\
  r_fd (return_int re) = None.
Proof.
  destruct re as [r e]. intros H. unfold observed, return_int. cbn [fst snd].
  destruct (Z.leb_spec 0 r); unfold raw_of; cbn [fst snd r_int r_fd]; split; auto.
  - left. eexists; split; [reflexivity|]. lia.
  - right. eexists; split; [reflexivity|]. lia.
Qed.

Theorem stat_trap_end_to_end : forall st sp p s x buf proc dup f,
  child_ready shm size hdr alloc maxn st sp -> program_string st maxn fuel sp p s ->
  program_block st maxn sp buf 144 -> resolves (combine calls oks) s x ->
  f_code f = 1 -> f_sysno f = 4 -> argument f 0 = p -> argument f 1 = buf ->
  exists st' f' b q m', heap_block shm size hdr b 144 /\
    emulate shm (shm + size) alloc fuel the_host proc dup sp st f = Ret (st', f') /\
    libc_view (f_rax f') = stat_result x b /\ f_rip f' = f_call_addr f /\
    same_bytes (cs_mem st') buf (after_stores m' (eff (CRequest 1 16 q))) b 144.
Proof.
  intros st sp p s x buf proc dup f CR PS PB R Fc Fn F0 F1. rewrite argument_reg in F0, F1.
  destruct (child_stat_request shm size hdr alloc fuel maxn st sp p s buf CR PS PB)
    as (m' & q & a & b & Q & A & B & D & C & _ & K). bytes_of D [8; 8]%nat.
  destruct CR as (MO & _).
  assert (CB : contains h b 144 = true).
  { apply contains_iff; auto; unfold is_word, heap_block, mapping_ok, W in *; lia. }
  assert (NB : b <> 0) by (unfold heap_block, mapping_ok in *; lia).
  set (res := match x with inl e => Result (- e) None | inr (fd, tail) =>
      return_int (if none_left tail then k [] (KFstat fd b)
              else on_path k fd (Some (joined tail)) (fun pfd => KFstatat pfd [] b 4096)) end).
  assert (HO : result_of (handle_stat k t h (fun _ => m') true 144 a b []) = res).
  { unfold handle_stat, h, res. rewrite (path_syscall_resolves _ _ _ _ _ _ _ _ _ x _ HC RH MO A C R).
    destruct x as [e|[fd tail]]; [reflexivity|]. unfold check_pointer. fold h. rewrite CB.
    replace (b =? 0) with false by lia. cbn [negb]. pose proof (str_tail tail) as ST. rewrite ?none_left_is.
    destruct (none_left tail); [reflexivity|]. rewrite ST.
    unfold fstatat_beneath, via_path_handle, openat_beneath, kcall, on_path.
    change (wrap o_path) with 2097152. change resolve_beneath with 8. change (Z.lor 0 at_empty_path) with 4096.
    cbn [fst snd app]. destruct (fst (k [] _) <? 0); reflexivity. }
  assert (PL : plausible (stat_result x b) /\ r_int res = raw_of (stat_result x b) /\ r_fd res = None).
  { unfold stat_result, res. destruct x as [e|[fd tail]].
    - split; [right; exists e; split; [reflexivity|destruct (resolves_err _ _ R); lia]|]. split; reflexivity.
    - destruct (none_left tail); apply observed_ok.
      + pose proof (LK [] (KFstat fd b)) as L. exact L.
      + pose proof (on_path_linux fd (Some (joined tail)) (fun pfd => KFstatat pfd [] b 4096)) as L.
        exact L. }
  destruct PL as (PL & RI & RF).
  eassert (X : exists st', _ = Ret (st', _) /\ _).
  { eapply (asks_value _ _ _ _ _ res false MO); try exact K;
      cbn [cr_kind cr_size cr_data]; try exact Q; try lia; try reflexivity.
    - unfold is_word, W; lia.
    - unfold builtin_callables. change (Z.to_nat 16) with 16%nat. change (tuple_widths 1) with [8; 8]%nat.
      rewrite D. change (1 =? K_Stat) with true. cbv iota. exact HO.
    - rewrite RI. pose proof (plausible_raw _ PL). lia. }
  destruct X as (st' & X & [X2 _]). cbv beta in X. rewrite RF, RI in X.
  unfold emulate. rewrite Fc. cbn [Z.eqb Pos.eqb]. unfold SyscallCallbackCount.
  cbn [syscall_callback syscall_numbers nth]. rewrite Fn. cbn [Z.eqb Pos.eqb emulated].
  rewrite F0, F1, X. cbn [obind]. eexists _, _, b, q, m'. split; [exact B|]. split; [reflexivity|].
  destruct (plausible_frame _ f PL) as [Y1 Y2]. split; [exact Y1|]. split; [exact Y2|]. exact X2.
Qed.

(** C24: access as a trapped system call (number 21).  For an exported file
    (an empty tail) the host passes a null path; see C25. *)
Definition access_result (x : Z + Z * list text) (mode : Z) : Z * option Z :=
  match x with
  | inl e => (-1, Some e)
  | inr (fd, tail) =>
    let re := on_path k fd (if none_left tail then None else Some (joined tail))
                (fun pfd => KFaccessat2 pfd [] mode 4096) in
    observed (fst re) (snd re)
  end.

Theorem access_trap_end_to_end : forall st sp p s x mode proc dup f,
  child_ready shm size hdr alloc maxn st sp -> program_string st maxn fuel sp p s ->
  resolves (combine calls oks) s x ->
  f_code f = 1 -> f_sysno f = 21 -> argument f 0 = p -> int_of (argument f 1) = mode -> - 2 ^ 31 <= mode < 2 ^ 31 ->
  exists st' f', emulate shm (shm + size) alloc fuel the_host proc dup sp st f = Ret (st', f') /\
    libc_view (f_rax f') = access_result x mode /\ f_rip f' = f_call_addr f.
Proof.
  intros st sp p s x mode proc dup f CR PS R Fc Fn F0 F1 Hm.
  try rewrite int_of_eq in F0; try rewrite argument_reg in F0; try rewrite uint_eq in F0. try rewrite int_of_eq in F1; try rewrite argument_reg in F1; try rewrite uint_eq in F1.
  destruct (child_access_request shm size hdr alloc fuel maxn st sp p s mode CR PS)
    as (m' & q & a & Q & A & D & C & K). bytes_of D [8; 4]%nat.
  destruct CR as (MO & _).
  set (res := match x with inl e => Result (- e) None | inr (fd, tail) =>
      return_int (on_path k fd (if none_left tail then None else Some (joined tail))
         (fun pfd => KFaccessat2 pfd [] mode 4096)) end).
  assert (HO : result_of (handle_access k t h (fun _ => m') true a mode []) = res).
  { unfold handle_access, h, res. rewrite (path_syscall_resolves _ _ _ _ _ _ _ _ _ x _ HC RH MO A C R).
    destruct x as [e|[fd tail]]; [reflexivity|]. pose proof (str_tail tail) as ST. rewrite ?none_left_is. rewrite ST.
    unfold faccessat_beneath, via_path_handle, openat_beneath, kcall, on_path.
    change (wrap o_path) with 2097152. change resolve_beneath with 8. change (Z.lor 0 at_empty_path) with 4096.
    cbn [fst snd app]. destruct (fst (k [] _) <? 0); reflexivity. }
  assert (PL : plausible (access_result x mode) /\ r_int res = raw_of (access_result x mode) /\ r_fd res = None).
  { unfold access_result, res. destruct x as [e|[fd tail]].
    - split; [right; exists e; split; [reflexivity|destruct (resolves_err _ _ R); lia]|]. split; reflexivity.
    - apply observed_ok. apply on_path_linux. }
  destruct PL as (PL & RI & RF).
  eassert (X : exists st', _ = Ret (st', _) /\ _).
  { eapply (asks_value _ _ _ _ _ res false MO); try exact K;
      cbn [cr_kind cr_size cr_data]; try exact Q; try lia; try reflexivity.
    - unfold is_word, W; lia.
    - unfold builtin_callables. change (Z.to_nat 12) with 12%nat. change (tuple_widths 2) with [8; 4]%nat.
      rewrite D. change (2 =? K_Stat) with false. change (2 =? K_Access) with true. cbv iota.
      rewrite to_int32_mod by exact Hm. exact HO.
    - rewrite RI. pose proof (plausible_raw _ PL). lia. }
  destruct X as (st' & X & _). cbv beta in X. rewrite RF, RI in X.
  unfold emulate. rewrite Fc. cbn [Z.eqb Pos.eqb]. unfold SyscallCallbackCount.
  cbn [syscall_callback syscall_numbers nth]. rewrite Fn. cbn [Z.eqb Pos.eqb emulated].
  rewrite F0, F1, X. cbn [obind]. eexists _, _. split; [reflexivity|]. apply plausible_frame. exact PL.
Qed.

Lemma openat_value : forall st sp p s proc dup dirfd flags mode,
  child_ready shm size hdr alloc maxn st sp -> program_string st maxn fuel sp p s ->
  (exists r, proc = slash :: r) -> hd_error s <> Some slash ->
  - 2 ^ 31 <= flags < 2 ^ 31 -> 0 <= mode < 2 ^ 32 -> 0 <= dirfd ->
  let r := fst (k [] (KOpenat2 dirfd (Some s) (wrap flags) mode 8)) in
  (r = -1 \/ 0 <= r < 2 ^ 31) /\
  exists st', callback_openat shm (shm + size) alloc fuel the_host proc dup sp st dirfd p flags mode = Ret (st', r).
Proof.
  intros st sp p s proc dup dirfd flags mode CR PS PR NS Hf Hm Hd. cbv zeta.
  destruct (child_openat_request shm size hdr alloc fuel maxn st sp p s proc dup dirfd flags mode CR PS PR NS Hm)
    as (m' & q & a & Q & A & D & C & K). bytes_of D [4; 8; 4; 4]%nat.
  destruct CR as (MO & _). replace (0 <=? dirfd) with true in K by lia.
  set (r := fst (k [] (KOpenat2 dirfd (Some s) (wrap flags) mode 8))).
  assert (Rr : r = -1 \/ 0 <= r < 2 ^ 31).
  { pose proof (LK [] (KOpenat2 dirfd (Some s) (wrap flags) mode 8)) as L. unfold r. destruct (k [] _). cbn. lia. }
  eassert (X : exists st', _ = Ret (st', _) /\ _).
  { eapply (asks_value _ _ _ _ _ (Result r None) true MO); try exact K;
      cbn [cr_kind cr_size cr_data]; try exact Q; try lia; try reflexivity.
    - unfold is_word, W; lia.
    - unfold builtin_callables. change (Z.to_nat 20) with 20%nat. change (tuple_widths 3) with [4; 8; 4; 4]%nat.
      rewrite D. change (3 =? K_OpenAt) with true. cbv iota. rewrite to_int32_mod by exact Hf.
      unfold handle_openat, h. rewrite (get_path_stable _ _ _ _ _ _ MO A C). cbn [obind].
      unfold openat_beneath, kcall. change resolve_beneath with 8. reflexivity.
    - cbn [r_int]. lia. }
  destruct X as (st' & X & _). split; [exact Rr|]. exists st'. exact X.
Qed.

(** What the program sees of openat: success gives the number the descriptor
    has in the host, every failure errno 1 (EPERM). *)
Definition openat_seen (r : Z) : Z * option Z := if 0 <=? r then (r, None) else (-1, Some 1).

(** C25: openat of a relative path, called as a function. *)
Theorem openat_end_to_end_limit : forall st sp p s proc dup dirfd flags mode,
  child_ready shm size hdr alloc maxn st sp -> program_string st maxn fuel sp p s ->
  (exists r, proc = slash :: r) -> hd_error s <> Some slash ->
  - 2 ^ 31 <= flags < 2 ^ 31 -> 0 <= mode < 2 ^ 32 -> 0 <= dirfd ->
  exists st', posix_openat shm (shm + size) alloc fuel the_host proc dup sp st dirfd p flags mode
    = Ret (st', openat_seen (fst (k [] (KOpenat2 dirfd (Some s) (wrap flags) mode 8)))).
Proof.
  intros st sp p s proc dup dirfd flags mode CR PS PR NS Hf Hm Hd.
  destruct (openat_value st sp p s proc dup dirfd flags mode CR PS PR NS Hf Hm Hd) as (Rr & st' & X).
  unfold posix_openat. rewrite X. cbn [obind].
  exists st'. do 2 f_equal. unfold syscall_return, openat_seen. set (r := fst _) in *. destruct (Z.leb_spec 0 r).
  - replace (r <? 0) with false by lia. reflexivity.
  - replace (r <? 0) with true by lia. do 2 f_equal. lia.
Qed.

(** C25: the same as a trapped system call (number 257). *)
Theorem openat_trap_limit : forall st sp p s proc dup dirfd flags mode f,
  child_ready shm size hdr alloc maxn st sp -> program_string st maxn fuel sp p s ->
  (exists r, proc = slash :: r) -> hd_error s <> Some slash ->
  - 2 ^ 31 <= flags < 2 ^ 31 -> 0 <= mode < 2 ^ 32 -> 0 <= dirfd ->
  f_code f = 1 -> f_sysno f = 257 -> int_of (argument f 0) = dirfd -> argument f 1 = p ->
  int_of (argument f 2) = flags -> argument f 3 mod 2 ^ 32 = mode ->
  exists st' f', emulate shm (shm + size) alloc fuel the_host proc dup sp st f = Ret (st', f') /\
    libc_view (f_rax f') = openat_seen (fst (k [] (KOpenat2 dirfd (Some s) (wrap flags) mode 8))) /\
    f_rip f' = f_call_addr f.
Proof.
  intros st sp p s proc dup dirfd flags mode f CR PS PR NS Hf Hm Hd Fc Fn F0 F1 F2 F3.
  try rewrite int_of_eq in F0; try rewrite argument_reg in F0; try rewrite uint_eq in F0. try rewrite int_of_eq in F1; try rewrite argument_reg in F1; try rewrite uint_eq in F1. try rewrite int_of_eq in F2; try rewrite argument_reg in F2; try rewrite uint_eq in F2. try rewrite int_of_eq in F3; try rewrite argument_reg in F3; try rewrite uint_eq in F3.
  destruct (openat_value st sp p s proc dup dirfd flags mode CR PS PR NS Hf Hm Hd) as (Rr & st' & X).
  unfold emulate. rewrite Fc. cbn [Z.eqb Pos.eqb]. unfold SyscallCallbackCount.
  cbn [syscall_callback syscall_numbers nth]. rewrite Fn. cbn [Z.eqb Pos.eqb emulated].
  rewrite F0, F1, F2, F3, X. cbn [obind]. eexists _, _. split; [reflexivity|].
  set (r := fst _) in *.
  assert (PL : plausible (openat_seen r) /\ raw_of (openat_seen r) = r).
  { unfold openat_seen, plausible, raw_of. destruct (Z.leb_spec 0 r); cbn [fst snd]; split; try lia.
    - left. exists r. split; [reflexivity|lia].
    - right. exists 1. split; [reflexivity|lia]. }
  destruct PL as [PL E]. pose proof (plausible_frame _ f PL) as Y. rewrite E in Y. exact Y.
Qed.

(** C45 (limit): connect (or bind) with an address outside shared memory always
    fails with EINVAL (22), whatever the host's policy allows. *)
Theorem connect_outside_always_einval : forall st sp kind fd addr n,
  child_ready shm size hdr alloc maxn st sp -> 0 < addr -> 0 < n < 2 ^ 32 -> addr + n < W ->
  addr + n <= shm \/ shm + size <= addr -> kind = 4 \/ kind = 5 -> 
  exists st', posix_bind_or_connect shm (shm + size) alloc fuel the_host kind sp st fd addr n
    = Ret (st', (-1, Some 22)).
Proof.
  intros st sp kind fd addr n CR P1 P2 P3 P4 Hk.
  destruct (child_connect_outside shm size hdr alloc fuel maxn st sp kind fd addr n CR P1 P2 P3 P4)
    as (m' & q & Q & D & K). bytes_of D [4; 8; 4]%nat.
  destruct CR as (MO & _).
  assert (NC : contains h addr n = false).
  { destruct (contains h addr n) eqn:X; [|reflexivity]. exfalso.
    apply contains_iff in X; auto; unfold is_word, mapping_ok, W in *; lia. }
  assert (HB : forall op fdo, fst (handle_bind_or_connect k np h (fun _ => m') op addr n fdo []) = Result (-22) None).
  { intros op fdo. unfold handle_bind_or_connect. rewrite NC. cbn [negb]. rewrite orb_true_r. reflexivity. }
  eassert (X : exists st', _ = Ret (st', _) /\ _).
  { eapply (asks_value _ _ _ _ _ (Result (-22) None) true MO); try exact K;
      cbn [cr_kind cr_size cr_data]; try exact Q; try lia.
    - unfold is_word, W; lia.
    - destruct Hk as [-> | ->]; reflexivity.
    - unfold builtin_callables. change (Z.to_nat 16) with 16%nat.
      replace (tuple_widths kind) with [4; 8; 4]%nat by (destruct Hk as [-> | ->]; reflexivity).
      rewrite D. destruct Hk as [-> | ->].
      + change (4 =? K_Open) with false. change (4 =? K_Bind) with true. cbv iota. apply HB.
      + change (5 =? K_Open) with false. change (5 =? K_Bind) with false. change (5 =? K_Connect) with true. cbv iota. apply HB.
    - cbn [r_int]. lia. }
  destruct X as (st' & X & _). cbv beta in X. cbn [r_fd r_int] in X. unfold posix_bind_or_connect. rewrite X. cbn [obind].
  exists st'. reflexivity.
Qed.

(** What bind and connect should do: the address goes to whatever the host's
    policy says, padded, and the program sees the outcome. *)
Definition connect_result (op : netop) (fd : Z) (bytes : list ascii) : Z * option Z :=
  let n := Z.of_nat (List.length bytes) in
  let asked who := KNet who op (NAddr fd (bytes ++ repeat (ascii_of_nat 165) (Z.to_nat (4096 - n))) n) in
  match get_policy np op with
  | PDeny => (-1, Some 38)
  | PAllow => observed (fst (k [] (asked BySystem))) (snd (k [] (asked BySystem)))
  | PCallback tag => observed (fst (k [] (asked (ByHandler tag)))) (snd (k [] (asked (ByHandler tag))))
  end.

Lemma holds_read m p bs n : holds m p bs -> n = Z.of_nat (length bs) -> read_bytes m p (Z.to_nat n) = bs.
Proof.
  intros H ->. rewrite Nat2Z.id. apply nth_error_ext. intros i. destruct (nth_error bs i) as [b|] eqn:E.
  - rewrite read_bytes_nth by (apply nth_error_Some; congruence). rewrite (H _ _ E). reflexivity.
  - apply nth_error_None. rewrite read_bytes_length. apply nth_error_None. exact E.
Qed.

Lemma connect_value st sp kind op fd addr n :
  child_ready shm size hdr alloc maxn st sp -> program_block st maxn sp addr n ->
  heap_block shm size hdr addr n -> addr + n < shm + size -> n <= 4096 -> 0 <= fd < 2 ^ 31 ->
  (kind, op) = (4, NBind) \/ (kind, op) = (5, NConnect) ->
  let obs := connect_result op fd (read_bytes (cs_mem st) addr (Z.to_nat n)) in
  plausible obs /\
  exists st', callback_bind_or_connect shm (shm + size) alloc fuel the_host kind sp st fd addr n
    = Ret (st', raw_of obs).
Proof.
  intros CR PB HB HE Hn Hfd Hk.
  destruct (child_connect_inside shm size hdr alloc fuel maxn st sp kind fd addr n CR PB HB HE ltac:(lia))
    as (m' & q & a & Q & A & D & SB & K). bytes_of D [4; 8; 4]%nat.
  destruct CR as (MO & T & _).
  assert (Pn : 0 < n) by (destruct PB as (PB & _); destruct (proj1 T _ _ PB) as (_ & X & _); exact X).
  replace (0 <=? fd) with true in K by lia.
  assert (Ca : contains h a n = true).
  { apply contains_iff; auto; unfold is_word, heap_block, mapping_ok, W in *; lia. }
  assert (RB : map (fun i => m' (a + Z.of_nat i)) (seq 0 (Z.to_nat n)) = read_bytes (cs_mem st) addr (Z.to_nat n)).
  { apply nth_error_ext. intros i. destruct (Nat.lt_ge_cases i (Z.to_nat n)) as [L|L].
    - rewrite read_bytes_nth by exact L.
      rewrite (map_nth_error _ i (seq 0 (Z.to_nat n)) (d := i)).
      2:{ rewrite nth_error_nth' with (d := 0%nat) by (rewrite seq_length; exact L). rewrite seq_nth by exact L. reflexivity. }
      f_equal. apply SB. lia.
    - rewrite (proj2 (nth_error_None _ i)) by (rewrite map_length, seq_length; exact L).
      symmetry. apply nth_error_None. rewrite read_bytes_length. exact L. }
  cbv zeta. set (obs := connect_result _ _ _).
  set (asked := fun who => KNet who op (NAddr fd (read_bytes (cs_mem st) addr (Z.to_nat n)
                     ++ repeat (ascii_of_nat 165) (Z.to_nat (4096 - n))) n)).
  set (re := match get_policy np op with
             | PDeny => (-1, 38) | PAllow => k [] (asked BySystem) | PCallback tag => k [] (asked (ByHandler tag)) end).
  assert (OB : obs = observed (fst re) (snd re)) 
    by (unfold obs, connect_result; rewrite read_bytes_length, Z2Nat.id by lia; unfold re, asked; destruct (get_policy np op); reflexivity).
  assert (LKr : let '(r, e) := re in (r = -1 /\ 0 < e <= 4095) \/ 0 <= r < 2 ^ 31).
  { unfold re. destruct (get_policy np op) as [| |tag]; [left; lia|exact (LK [] (asked BySystem))|exact (LK [] (asked (ByHandler tag)))]. }
  destruct (observed_ok re LKr) as (PL & RI & RF). rewrite <- OB in PL, RI.
  assert (HO : fst (handle_bind_or_connect k np h (fun _ => m') op a n (Some fd) []) = return_int re).
  { unfold handle_bind_or_connect. change max_sockaddr with 4096. rewrite Ca.
    replace (fd <? 0) with false by lia. replace (4096 <? n) with false by lia. cbn [orb negb].
    rewrite memcpy_out_eq. cbn [Nat.add]. rewrite RB. unfold net_invoke, re, kcall, asked, fill_byte.
    destruct (get_policy np op); reflexivity. }
  eassert (X : exists st', _ = Ret (st', _) /\ _).
  { eapply (asks_value _ _ _ _ _ (return_int re) true MO); try exact K;
      cbn [cr_kind cr_size cr_data]; try exact Q.
    - unfold is_word, W; lia.
    - destruct Hk as [Hk|Hk]; injection Hk as -> _; lia.
    - destruct Hk as [Hk|Hk]; injection Hk as -> _; reflexivity.
    - lia.
    - unfold builtin_callables. change (Z.to_nat 16) with 16%nat.
      replace (tuple_widths kind) with [4; 8; 4]%nat by (destruct Hk as [Hk|Hk]; injection Hk as -> _; reflexivity).
      rewrite D. destruct Hk as [Hk|Hk]; injection Hk as -> ->; exact HO.
    - rewrite RI. pose proof (plausible_raw _ PL). lia. }
  destruct X as (st' & X & _). cbv beta in X. rewrite RF, RI in X. split; [exact PL|]. exists st'. exact X.
Qed.

(** C24: connect (kind 5) and bind (kind 4), called as functions, with an
    address in the shared heap. *)
Theorem connect_inside_end_to_end : forall st sp kind op fd addr n bytes,
  child_ready shm size hdr alloc maxn st sp -> program_block st maxn sp addr n ->
  holds (cs_mem st) addr bytes -> n = Z.of_nat (length bytes) ->
  heap_block shm size hdr addr n -> addr + n < shm + size -> n <= 4096 -> 0 <= fd < 2 ^ 31 ->
  (kind, op) = (4, NBind) \/ (kind, op) = (5, NConnect) ->
  exists st', posix_bind_or_connect shm (shm + size) alloc fuel the_host kind sp st fd addr n
    = Ret (st', connect_result op fd bytes).
Proof.
  intros st sp kind op fd addr n bytes CR PB HL LN HB HE Hn Hfd Hk.
  destruct (connect_value st sp kind op fd addr n CR PB HB HE Hn Hfd Hk) as (PL & st' & X). rewrite <- (holds_read _ _ _ _ HL LN).
  unfold posix_bind_or_connect. rewrite X. cbn [obind].
  exists st'. rewrite plausible_posix by exact PL. reflexivity.
Qed.

(** C24: the trapped system calls bind (number 49) and connect (number 42). *)
Theorem connect_trap_end_to_end : forall st sp op fd addr n bytes proc dup f,
  child_ready shm size hdr alloc maxn st sp -> program_block st maxn sp addr n ->
  holds (cs_mem st) addr bytes -> n = Z.of_nat (length bytes) ->
  heap_block shm size hdr addr n -> addr + n < shm + size -> n <= 4096 -> 0 <= fd < 2 ^ 31 ->
  (f_sysno f, op) = (49, NBind) \/ (f_sysno f, op) = (42, NConnect) ->
  f_code f = 1 -> int_of (argument f 0) = fd -> argument f 1 = addr -> argument f 2 mod 2 ^ 32 = n ->
  exists st' f', emulate shm (shm + size) alloc fuel the_host proc dup sp st f = Ret (st', f') /\
    libc_view (f_rax f') = connect_result op fd bytes /\
    f_rip f' = f_call_addr f.
Proof.
  intros st sp op fd addr n bytes proc dup f CR PB HL LN HB HE Hn Hfd Hk Fc F0 F1 F2.
  try rewrite int_of_eq in F0; try rewrite argument_reg in F0; try rewrite uint_eq in F0. try rewrite int_of_eq in F1; try rewrite argument_reg in F1; try rewrite uint_eq in F1. try rewrite int_of_eq in F2; try rewrite argument_reg in F2; try rewrite uint_eq in F2.
  assert (X : exists kind, ((kind, op) = (4, NBind) \/ (kind, op) = (5, NConnect)) /\
    emulate shm (shm + size) alloc fuel the_host proc dup sp st f =
    obind (callback_bind_or_connect shm (shm + size) alloc fuel the_host kind sp st fd addr n) (fun '(st', x) =>
        let result := to_int32 x in
        Ret (st', if result <? 0 then set_error_return f (- result) else set_success_return f result))).
  { unfold emulate. rewrite Fc. cbn [Z.eqb Pos.eqb]. unfold SyscallCallbackCount.
    destruct Hk as [Hk|Hk]; injection Hk as Fn ->; [exists 4|exists 5]; (split; [auto|]);
      cbn [syscall_callback syscall_numbers nth]; rewrite Fn; cbn [Z.eqb Pos.eqb emulated]; rewrite F0, F1, F2; reflexivity. }
  destruct X as (kind & Hk' & ->).
  destruct (connect_value st sp kind op fd addr n CR PB HB HE Hn Hfd Hk') as (PL & st' & ->). rewrite <- (holds_read _ _ _ _ HL LN).
  cbn [obind]. eexists _, _. split; [reflexivity|]. apply plausible_frame. exact PL.
Qed.
End E.
Print Assumptions connect_inside_end_to_end.
Print Assumptions connect_trap_end_to_end.
Print Assumptions openat_trap_limit.
Print Assumptions open_end_to_end.
Print Assumptions open_trap_end_to_end.
Print Assumptions stat_trap_end_to_end.
Print Assumptions access_trap_end_to_end.
Print Assumptions openat_end_to_end_limit.
Print Assumptions connect_outside_always_einval.

(** C25: a trapped call for which there is no emulation (any number other than
    those of open, stat, access, openat, bind, connect) leaves the registers
    as they were: rax still holds the system call number. *)
Theorem unemulated_trap_returns_number : forall shm hi alloc fuel H proc dup sp st f,
  ~ In (f_sysno f) [2; 4; 21; 257; 49; 42] \/ f_code f <> 1 ->
  emulate shm hi alloc fuel H proc dup sp st f = Ret (st, f).
Proof.
  intros shm hi alloc fuel H proc dup sp st f [N|N]; unfold emulate.
  - destruct (f_code f =? 1); [|reflexivity]. unfold SyscallCallbackCount, syscall_numbers. cbn [In] in N.
    cbn [syscall_callback nth].
    repeat match goal with |- context [?a =? ?b] => destruct (Z.eqb_spec a b); [exfalso; apply N; auto 10|] end.
    reflexivity.
  - destruct (Z.eqb_spec (f_code f) 1); [contradiction|reflexivity].
Qed.
Print Assumptions unemulated_trap_returns_number.

(** ** The hypotheses are met: the demonstration child of ChildCallsProps and
    the demonstration exports of FileTreeProps. *)
Definition demo_kernel : kernel := fun log op =>
  match op with
  | KOpenat2 _ (Some _) _ _ _ => (40, 0)
  | KOpenat2 _ None _ _ _ => (-1, 14)
  | KDup _ => (41, 0)
  | KFaccessat2 _ _ m _ => if m =? 2 then (-1, 13) else (0, 0)
  | _ => (0, 0)
  end.

Example demo_linux : linux_kernel demo_kernel.
Proof.
  intros log op. unfold demo_kernel. destruct op as [fd [pt|] f m r|fd|fd pt m f|fd b|fd pt b f|fd|w op a|o]; try lia.
  destruct (m =? 2); lia.
Qed.

Definition demo_recv (f : Z) : Z := Z.min (Z.abs f) 9.

Example demo_exports : exists t, run_host demo_calls = Ret ([true; true; false; true; true], t) /\
  resolves (combine demo_calls [true; true; false; true; true]) demo_text (inr (11, [list_ascii_of_string "a"])).
Proof.
  destruct (filetree_refines_export_history _ filetree_ex_calls) as (oks & t & v & RH & _ & Hv & Lv).
  assert (E : fst (match run_host demo_calls with Ret r => r | _ => ([], t) end) = [true; true; false; true; true]) by reflexivity.
  rewrite RH in E. cbn [fst] in E. subst oks. exists t. split; [exact RH|].
  assert (T : t = snd (match run_host demo_calls with Ret r => r | _ => ([], t) end)) by (rewrite RH; reflexivity).
  assert (L : lookup_file t (mkPath false (map list_ascii_of_string ["usr"; "lib"; "a"]%string))
    = Some (11, mkPath false [list_ascii_of_string "a"])) by (rewrite T; reflexivity).
  apply Lv in L as (_ & [[X _]|(_ & q & X & D)]); [discriminate|]. cbn [comps] in X, D.
  eapply R_below with (segs := [] :: map list_ascii_of_string ["usr"; "lib"; "a"]%string) (q := q).
  - split; [discriminate|]. split; [|reflexivity]. repeat constructor; vm_compute; intuition discriminate.
  - intros X'. rewrite <- (canonicalise_fails_iff (mkPath true ([] :: map list_ascii_of_string ["usr"; "lib"; "a"]%string))) in X'.
    discriminate.
  - exact X.
  - discriminate.
  - exists v. auto.
Qed.

(** open("/usr/lib/a", O_RDONLY) in the demonstration succeeds with the
    descriptor's number in the child; access(..., W_OK) fails with EACCES. *)
Example demo_open_runs : exists t st' st'' f',
  let the_host := host_process demo_kernel t new_netpolicy (library_heap 1000000 100000 16) demo_recv (fun _ => []) in
  run_host demo_calls = Ret ([true; true; false; true; true], t) /\
  posix_open 1000000 1100000 demo_alloc 100 the_host 2000 demo_child 1000 0 0 = Ret (st', (9, None)) /\
  emulate 1000000 1100000 demo_alloc 100 the_host [slash] (fun _ => -1) 2000 demo_child
    (Frame 1 21 7000 21 7002 [1000; 2; 0; 0; 0; 0]) = Ret (st'', f') /\
  libc_view (f_rax f') = (-1, Some 13) /\ f_rip f' = 7000.
Proof.
  destruct demo_exports as (t & RH & RS).
  assert (RV : forall f, 0 <= f -> 0 <= demo_recv f < 2 ^ 31) by (intros; unfold demo_recv; lia).
  destruct (open_end_to_end 1000000 100000 16 demo_alloc 100 4096 demo_calls _ t new_netpolicy demo_kernel demo_recv
    (fun _ => []) filetree_ex_calls RH demo_linux RV demo_child 2000 1000 demo_text _ 0 0
    demo_ready demo_string ltac:(lia) ltac:(lia) RS) as (st' & E).
  destruct (access_trap_end_to_end 1000000 100000 16 demo_alloc 100 4096 demo_calls _ t new_netpolicy demo_kernel demo_recv
    (fun _ => []) filetree_ex_calls RH demo_linux demo_child 2000 1000 demo_text _ 2 [slash] (fun _ => -1)
    (Frame 1 21 7000 21 7002 [1000; 2; 0; 0; 0; 0])
    demo_ready demo_string RS eq_refl eq_refl eq_refl eq_refl ltac:(lia)) as (st'' & f' & E1 & E2 & E3).
  exists t, st', st'', f'. cbv zeta. split; [exact RH|]. split; [exact E|]. split; [exact E1|]. split; [exact E2|exact E3].
Qed.
