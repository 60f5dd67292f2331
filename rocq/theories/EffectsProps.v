(** Claimed theorems about everything the host does for a sandbox's request (C62). *)
From Coq Require Import String Ascii List ZArith Lia Bool.
From Verif Require Import Base PathModel PathProof FileTreeModel FileTreeSpec FileTreeProof FileTreeProps RegionModel RegionSpec RegionProof DispatchModel DispatchProps
  HostCallsModel HostCallsSpec HostCallsProof HostCallsProps NetProof NetProps ChildCallsModel ChildCallsSpec ChildCallsProof EffectsModel EffectsSpec EffectsProof.
Import ListNotations.
Open Scope Z_scope.

Section SERVE.
Variables (t : FileTreeModel.dir) (np : netpolicy) (h : heap) (k : kernel).
Variables (rd1 rd2 : reads) (hd : Z -> Z) (resolver : list kop -> list addrinfo) (alloc : Z -> Z).
Local Notation effs := (all_effects k t np h rd1 rd2 hd resolver alloc).

Lemma all_effects_app a b : effs (a ++ b) = obind (effs a) (fun e => obind (effs b) (fun e' => Ret (and_then e e'))).
Proof.
  induction a as [|x a IH]; cbn [app all_effects].
  - destruct (effs b) as [e| | | |]; cbn [obind]; try reflexivity. destruct e; reflexivity.
  - rewrite IH. destruct (effects_of _ _ _ _ _ _ _ _ _ x) as [e| | | |]; cbn [obind]; try reflexivity.
    destruct (effs a) as [e1| | | |]; cbn [obind]; try reflexivity.
    destruct (effs b) as [e2| | | |]; cbn [obind]; try reflexivity.
    unfold and_then; cbn [e_ops e_writes e_reads e_replies]. rewrite !app_assoc. reflexivity.
Qed.

Lemma loads_effects l : effs (map ALoad l) = Ret (Effects [] [] (byte_loads l) []).
Proof.
  induction l as [|x l IH]; cbn [map all_effects]; [reflexivity|]. rewrite IH. reflexivity.
Qed.

Lemma tail_effects i f rest : effs ([AReply i f] ++ close_opt f ++ close_opt rest) =
  Ret (Effects (map KClose (opt_list f ++ opt_list rest)) [] [] [(i, f)]).
Proof. destruct f, rest; reflexivity. Qed.
End SERVE.

(** C62: whatever a sandbox asks for, the host (a) reads only the sandbox's
    memory, and writes only the sandbox's memory, as far as addresses supplied by
    the sandbox or blocks allocated for the answer are concerned; (b) asks the
    system only for operations on exported objects, on the descriptor that came
    with the request, on descriptors it opened from these, or for network
    operations that the host's settings allow; (c) sends exactly one reply, and a
    descriptor in it was opened by such an operation. *)
Theorem any_request_confined :
  forall calls oks t shm size hdr k hist rd0 rd1 rd2 hd resolver alloc rq sent,
  host_calls calls -> run_host calls = Ret (oks, t) -> mapping_ok shm size hdr ->
  is_word (cr_kind rq) -> is_word (cr_size rq) -> is_word (cr_data rq) ->
  (forall n, alloc n = 0 \/ inside (shm + 2 * hdr) (shm + size) (alloc n, n)) ->
  (forall log, 48 * Z.of_nat (length (resolver log)) +
     fold_right (fun a n => Z.of_nat (length (ai_sockaddr a)) + n) 0 (resolver log) < W) ->
  exists e, serve k t (policy_after hist) (library_heap shm size hdr) rd1 rd2 hd resolver alloc rd0 rq sent = Ret e /\
    Forall (inside (shm + 2 * hdr) (shm + size)) (e_writes e) /\
    Forall (inside (shm + 2 * hdr) (shm + size)) (e_reads e) /\
    Forall (answers_inside (shm + 2 * hdr) (shm + size)) (e_ops e) /\
    all_permitted k (combine calls oks) hist sent (e_ops e) /\
    exists i f, e_replies e = [(i, f)] /\ forall g, f = Some g -> opened k (e_ops e) g.
Proof.
  intros calls oks t shm size hdr k hist rd0 rd1 rd2 hd resolver alloc rq sent HC RH M Wk Ws Wd AL RS.
  set (lo := shm + 2 * hdr) in *. set (hi := shm + size) in *. set (ex := combine calls oks).
  unfold serve, handle.
  assert (REF : forall a rest, (a = close_opt sent /\ rest = None) \/ (a = [] /\ rest = sent) ->
    exists e, all_effects k t (policy_after hist) (library_heap shm size hdr) rd1 rd2 hd resolver alloc
      (a ++ [AReply (r_int no_result) (r_fd no_result)] ++ close_opt (r_fd no_result) ++ close_opt rest) = Ret e /\
    Forall (inside lo hi) (e_writes e) /\ Forall (inside lo hi) (e_reads e) /\ Forall (answers_inside lo hi) (e_ops e) /\
    all_permitted k ex hist sent (e_ops e) /\ exists i f, e_replies e = [(i, f)] /\ forall g, f = Some g -> opened k (e_ops e) g).
  { intros a rest D.
    assert (P : exists e, all_effects k t (policy_after hist) (library_heap shm size hdr) rd1 rd2 hd resolver alloc
      (a ++ [AReply (r_int no_result) (r_fd no_result)] ++ close_opt (r_fd no_result) ++ close_opt rest) = Ret e /\
      e = Effects (map KClose (opt_list sent)) [] [] [(-38, None)]).
    { destruct D as [[-> ->]|[-> ->]]; destruct sent; eexists; split; reflexivity. }
    destruct P as (e & E & ->). eexists. split; [exact E|]. cbn [e_ops e_writes e_reads e_replies].
    split; [constructor|]. split; [constructor|]. split; [destruct sent; repeat constructor|].
    split; [destruct sent; [apply allp_one; apply P_close_sent; auto|apply allp_nil]|].
    exists (-38), None. split; [reflexivity|discriminate]. }
  unfold select_handler.
  assert (DH : d_handlers (new_dispatcher tuple_size) =
    map (fun tag => SFn tag (tuple_size tag) (takes tag)) [0; 1; 2; 3; 4; 5; 6]) by reflexivity.
  rewrite DH. rewrite map_length. change (Z.of_nat (length [0; 1; 2; 3; 4; 5; 6])) with 7.
  destruct (Z.ltb_spec (cr_kind rq) 7) as [K7|K7]; [|apply (REF [] sent); auto].
  assert (NT : nth_error [0; 1; 2; 3; 4; 5; 6] (Z.to_nat (cr_kind rq)) = Some (cr_kind rq)).
  { unfold is_word in Wk. assert (cr_kind rq = 0 \/ cr_kind rq = 1 \/ cr_kind rq = 2 \/ cr_kind rq = 3 \/ cr_kind rq = 4 \/ cr_kind rq = 5 \/ cr_kind rq = 6) as C by lia.
    destruct C as [-> |[-> |[-> |[-> |[-> |[-> | ->]]]]]]; reflexivity. }
  apply (map_nth_error (fun tag => SFn tag (tuple_size tag) (takes tag))) in NT. rewrite NT. clear NT DH.
  set (tag := cr_kind rq) in *. unfold invoke.
  destruct (Z.eqb_spec (cr_size rq) (tuple_size tag)) as [Ez|]; cbn [negb]; [|apply (REF (close_opt sent) None); auto].
  destruct (contains (library_heap shm size hdr) (cr_data rq) (cr_size rq)) eqn:C; cbn [negb]; [|apply (REF (close_opt sent) None); auto].
  clear REF. apply contains_iff in C; auto. rewrite Ez in C.
  destruct (memcpy_out rd0 0 (cr_data rq) (Z.to_nat (tuple_size tag))) as [[bytes n] tr] eqn:MC.
  assert (TR : forall x, In x tr -> lo <= x < hi).
  { intros x X. pose proof (proj2 (memcpy_out_facts _ _ _ _ _ _ _ MC) x X) as Y. unfold is_word in Ws. unfold lo, hi. lia. }
  unfold is_word in Wk. assert (T : 0 <= tag < 7) by lia.
  destruct (builtin_fine calls oks t shm size hdr k hist HC RH M rd1 rd2 hd resolver alloc AL RS sent tag bytes T)
    as (r & e & E & G1 & G2 & G3 & G4 & G5 & G6).
  set (given := if takes tag then sent else None) in *.
  set (closing := if takes tag then None else sent).
  assert (BR : builtin_result k t (policy_after hist) (library_heap shm size hdr) rd1 rd2 hd resolver alloc tag bytes given = r)
    by (unfold builtin_result; rewrite E; reflexivity).
  assert (ACTS : all_effects k t (policy_after hist) (library_heap shm size hdr) rd1 rd2 hd resolver alloc
      ((map ALoad tr ++ [AInvoke tag bytes given] ++ close_opt closing) ++ [AReply (r_int r) (r_fd r)] ++ close_opt (r_fd r) ++ close_opt None)
    = Ret (Effects (e_ops e ++ map KClose (opt_list closing ++ opt_list (r_fd r))) (e_writes e) (byte_loads tr ++ e_reads e) [(r_int r, r_fd r)])).
  { rewrite !all_effects_app, loads_effects. cbn [all_effects effects_of obind]. rewrite E. cbn [obind].
    destruct closing as [cf|], (r_fd r) as [rf|]; cbn; unfold and_then; cbn [e_ops e_writes e_reads e_replies app];
      rewrite ?app_nil_r, ?G5; cbn [app]; rewrite ?app_nil_r, <- ?app_assoc; reflexivity. }
  exists (Effects (e_ops e ++ map KClose (opt_list closing ++ opt_list (r_fd r))) (e_writes e) (byte_loads tr ++ e_reads e) [(r_int r, r_fd r)]).
  split.
  { rewrite <- ACTS. unfold given, closing in *. clear ACTS.
    destruct (takes tag); rewrite BR; cbn [close_opt app]; rewrite ?app_nil_r; reflexivity. }
  cbn [e_ops e_writes e_reads e_replies].
  split; [exact G2|]. split; [apply Forall_app; split; [apply byte_loads_inside; exact TR|exact G3]|].
  split. { apply Forall_app. split; [exact G4|]. apply Forall_forall. intros op I. apply in_map_iff in I as (x & <- & _). exact Logic.I. }
  split.
  { rewrite map_app, app_assoc.
    assert (A1 : all_permitted k ex hist sent (e_ops e ++ map KClose (opt_list closing))).
    { unfold closing. destruct (takes tag); [cbn; rewrite app_nil_r; exact G1|].
      destruct sent as [f|]; [|cbn; rewrite app_nil_r; exact G1]. apply allp_snoc; [exact G1|apply P_close_sent; reflexivity]. }
    destruct (r_fd r) as [rf|]; [|cbn; rewrite app_nil_r; exact A1].
    apply allp_snoc; [exact A1|]. apply P_close_opened. apply opened_app. apply G6. reflexivity. }
  exists (r_int r), (r_fd r). split; [reflexivity|]. intros g F. apply opened_app. apply G6. exact F.
Qed.
Print Assumptions any_request_confined.

(** C62: the list of what the host reads is complete.  What it does for a request
    is the same for all contents of the rest of memory, at all times. *)
Theorem request_uses_only_what_it_reads :
  forall k t np h rd0 rd0' rd1 rd1' rd2 rd2' hd hd' resolver alloc rq sent e,
  serve k t np h rd1 rd2 hd resolver alloc rd0 rq sent = Ret e ->
  (forall n x, covers (e_reads e) x -> rd0' n x = rd0 n x /\ rd1' n x = rd1 n x /\ rd2' n x = rd2 n x) ->
  (forall x, covers (e_reads e) x -> hd' x = hd x) ->
  serve k t np h rd1' rd2' hd' resolver alloc rd0' rq sent = Ret e.
Proof.
  intros k t np h rd0 rd0' rd1 rd1' rd2 rd2' hd hd' resolver alloc rq sent e E A AH.
  unfold serve, handle, select_handler in *.
  destruct (cr_kind rq <? _); [|rewrite <- E; destruct sent; reflexivity].
  destruct (nth_error _ _) as [s|]; [|rewrite <- E; destruct sent; reflexivity].
  unfold invoke in *. destruct s as [|tag size tk]; [rewrite <- E; destruct sent; reflexivity|].
  destruct (negb (cr_size rq =? size)); [rewrite <- E; destruct sent; reflexivity|].
  destruct (negb (contains h (cr_data rq) (cr_size rq))); [rewrite <- E; destruct sent; reflexivity|].
  destruct (memcpy_out rd0 0 (cr_data rq) (Z.to_nat size)) as [[bytes n] tr] eqn:M.
  assert (X : forall x c rest, all_effects k t np h rd1 rd2 hd resolver alloc
      ((map ALoad tr ++ AInvoke tag bytes x :: c) ++ rest) = Ret e ->
      exists r eb e1, run_builtin k t np h rd1 rd2 hd resolver alloc tag bytes x = Ret (r, eb) /\
        e_reads e = byte_loads tr ++ e_reads eb ++ e1).
  { intros x c rest F. rewrite <- app_assoc, all_effects_app, loads_effects in F. cbn [obind app all_effects effects_of] in F.
    destruct (run_builtin _ _ _ _ _ _ _ _ _ _ _ _) as [[r eb]| | | |]; try discriminate F. cbn [obind] in F.
    apply obind_ret in F as (e2 & F & G). apply obind_ret in F as (e3 & F & G'). inversion G'; subst e2. inversion G; subst e.
    exists r, eb, (e_reads e3). split; reflexivity. }
  assert (Y : forall x r eb e1, run_builtin k t np h rd1 rd2 hd resolver alloc tag bytes x = Ret (r, eb) ->
      e_reads e = byte_loads tr ++ e_reads eb ++ e1 ->
      memcpy_out rd0' 0 (cr_data rq) (Z.to_nat size) = (bytes, n, tr) /\
      run_builtin k t np h rd1' rd2' hd' resolver alloc tag bytes x = Ret (r, eb)).
  { intros x r eb e1 F G. rewrite G in A, AH. split.
    - eapply memcpy_ext; [exact M|]. intros u y I. apply A, covers_app. left. apply covers_bytes. exact I.
    - eapply builtin_ext; [exact F| | |].
      + intros u y C. apply A, covers_app. right. apply covers_app. auto.
      + intros u y C. apply A, covers_app. right. apply covers_app. auto.
      + intros y C. apply AH, covers_app. right. apply covers_app. auto. }
  assert (Z : forall r2 r2' g l, all_effects k t np h r2 r2' g resolver alloc (l ++ close_opt (@None Z)) = all_effects k t np h r2 r2' g resolver alloc l).
  { intros. cbn [close_opt]. rewrite app_nil_r. reflexivity. }
  destruct tk.
  - destruct (X _ _ _ E) as (r & eb & e1 & F & G). destruct (Y _ _ _ _ F G) as [M' F'].
    rewrite M'. unfold builtin_result in *. rewrite F'. rewrite F in E. rewrite <- E.
    rewrite !all_effects_app, !loads_effects. cbn [all_effects effects_of obind app]. rewrite F, F'. cbn [obind].
    destruct (r_fd r); reflexivity.
  - destruct (X _ _ _ E) as (r & eb & e1 & F & G). destruct (Y _ _ _ _ F G) as [M' F'].
    rewrite M'. unfold builtin_result in *. rewrite F'. rewrite F in E. rewrite <- E.
    rewrite !all_effects_app, !loads_effects. cbn [all_effects effects_of obind app]. rewrite F, F'. cbn [obind].
    destruct sent, (r_fd r); reflexivity.
Qed.
Print Assumptions request_uses_only_what_it_reads.

(** C62: the list of what the host writes is complete: the struct stat of 144
    bytes behind each fstat and fstatat of the stat handler, and every byte
    (HostCallsSpec.extent) of every store of the getaddrinfo handler. *)
Theorem request_reports_its_writes : forall k t np h rd1 rd2 hd resolver alloc tag bytes fd r e,
  run_builtin k t np h rd1 rd2 hd resolver alloc tag bytes fd = Ret (r, e) ->
  (tag = 1 -> forall f buf, (In (KFstat f buf) (e_ops e) \/ exists p fl, In (KFstatat f p buf fl) (e_ops e)) ->
     In (buf, 144) (e_writes e)) /\
  (tag = 6 -> forall a b c d g, length bytes = 32%nat ->
     numbers_at (fun x => nth (Z.to_nat x) bytes nul) 0 [(8, a); (8, b); (8, c); (8, d)] ->
     handle_getaddrinfo k np h rd1 rd2 true hd resolver alloc a b c d [] = Ret g ->
     e_writes e = map extent (g_stores g)).
Proof.
  intros k t np h rd1 rd2 hd resolver alloc tag bytes fd r e. unfold run_builtin. intros E. split.
  - intros ->. change (tuple_widths 1) with [8; 8]%nat in E. cbn [Z.eqb Pos.eqb] in E. intros f buf I1.
    destruct (decode _ _) as [[|a [|b [|c [|d [|? ?]]]]]|]; try (cbn in E; injection E as <- <-; destruct I1 as [[]|(?&?&[])]).
    cbn -[handle_stat] in E. destruct (handle_stat _ _ _ _ _ _ _ _ _) as [[r' ops]| | | |]; try discriminate. cbn [obind] in E. injection E as <- <-.
    cbn [e_ops e_writes] in *. unfold stat_writes. apply in_flat_map.
    destruct I1 as [I1|(? & ? & I1)]; (eexists; split; [exact I1|left; reflexivity]).
  - intros -> a b c d g L D G. bytes_of D [8; 8; 8; 8]%nat.
    replace (read_bytes (fun x => nth (Z.to_nat x) bytes nul) 0 32) with bytes in D.
    2:{ apply (nth_ext _ _ nul nul); [rewrite read_bytes_length; exact L|]. intros i Hi. symmetry. apply nth_error_nth.
        rewrite read_bytes_nth by lia. do 2 f_equal. lia. }
    change (tuple_widths 6) with [8; 8; 8; 8]%nat in E. rewrite D in E. cbn -[handle_getaddrinfo] in E.
    rewrite G in E. cbn [obind] in E. injection E as <- <-. cbn [e_writes]. apply map_ext. intros []; reflexivity.
Qed.

(** C62: a sandbox to which nothing was exported and for which no network setting
    was made gets nothing done at all, except opening what lies beneath a
    descriptor that it holds already. *)
Theorem nothing_exported_nothing_reached :
  forall shm size hdr k rd0 rd1 rd2 hd resolver alloc rq sent,
  mapping_ok shm size hdr ->
  is_word (cr_kind rq) -> is_word (cr_size rq) -> is_word (cr_data rq) ->
  (forall n, alloc n = 0 \/ inside (shm + 2 * hdr) (shm + size) (alloc n, n)) ->
  (forall log, 48 * Z.of_nat (length (resolver log)) +
     fold_right (fun a n => Z.of_nat (length (ai_sockaddr a)) + n) 0 (resolver log) < W) ->
  exists e, serve k [] new_netpolicy (library_heap shm size hdr) rd1 rd2 hd resolver alloc rd0 rq sent = Ret e /\
  forall op, In op (e_ops e) ->
    match op with
    | KOpenat2 f _ _ _ resolve => resolve = 8 /\ (sent = Some f \/ sent = None /\ f = -1)
    | KFstatat f p _ _ | KFaccessat2 f p _ _ => p = [] /\ opened k (e_ops e) f
    | KClose f => sent = Some f \/ opened k (e_ops e) f
    | KDup _ | KFstat _ _ | KNet _ _ _ | KFb _ => False
    end.
Proof.
  intros shm size hdr k rd0 rd1 rd2 hd resolver alloc rq sent M Wk Ws Wd AL RS.
  destruct (any_request_confined [] [] [] shm size hdr k [] rd0 rd1 rd2 hd resolver alloc rq sent
    (Forall_nil _) eq_refl M Wk Ws Wd AL RS) as (e & E & _ & _ & _ & P & _).
  exists e. split; [exact E|]. intros op I. apply in_split in I as (pre & post & S). pose proof (P _ _ _ S) as Q.
  assert (U : forall f, opened k pre f -> opened k (e_ops e) f) by (intros f O; rewrite S; apply opened_app; exact O).
  assert (L : forall o s, ~ last_setting o [] (Some s)).
  { intros o s X. inversion X as [|h p E1|h o' p r N X' E1]; destruct h; discriminate. }
  assert (NF : forall q f, ~ exported_file [] q f) by (intros q f (v & Hv & V); exact (proj1 (FileTreeProof.history_source _ _ Hv) _ _ V)).
  assert (ND : forall q f, ~ exported_dir [] q f) by (intros q f (v & Hv & V); exact (proj2 (FileTreeProof.history_source _ _ Hv) _ _ V)).
  destruct Q; cbn [combine] in *; try (exfalso; solve [eapply NF; eauto|eapply ND; eauto]); auto.
  exfalso. eapply L; eauto.
Qed.
Print Assumptions nothing_exported_nothing_reached.

(** The hypotheses hold of a host that exported the directory 7 at /data, with a
    request to open /data/a in its memory; the host opens "a" beneath 7 and sends
    the new descriptor. *)
Definition ex_mem : Z -> ascii := fun a =>
  if (5000 <=? a) && (a <? 5007) then nth (Z.to_nat (a - 5000)) (list_ascii_of_string "/data/a") nul
  else if a =? 4900 then ascii_of_nat 136 else if a =? 4901 then ascii_of_nat 19 else nul.
Definition ex_serve : outcome effects :=
  serve (fun _ _ => (9, 0)) (match run_host [([list_ascii_of_string "data"], LeafDir 7)] with Ret (_, t) => t | _ => [] end)
    (policy_after []) (library_heap 4096 4096 64) (fun _ => ex_mem) (fun _ => ex_mem) (fun _ => 0) (fun _ => []) (fun _ => 0)
    (fun _ => ex_mem) (CRequest 0 16 4900) (Some 33).
Example ex_opens : ex_serve = Ret (Effects
  [KOpenat2 7 (Some (list_ascii_of_string "a")) 0 0 8; KClose 33; KClose 9] []
  (match ex_serve with Ret e => e_reads e | _ => [] end) [(-38, Some 9)]) /\
  length (match ex_serve with Ret e => e_reads e | _ => [] end) = 31%nat.
Proof. vm_compute. split; reflexivity. Qed.
Example ex_hyps : host_calls [([list_ascii_of_string "data"], LeafDir 7)] /\ mapping_ok 4096 4096 64 /\ is_word 4900.
Proof.
  split; [|unfold mapping_ok, is_word, W; lia]. repeat constructor; cbn; try discriminate; try reflexivity; apply no_slash_dec; reflexivity.
Qed.
(** It does not matter what lies elsewhere: [ex_mem] and a memory of which the
    rest is filled with "x" agree on the 31 bytes read. *)
Definition ex_other (a : Z) : ascii :=
  if (5000 <=? a) && (a <? 5008) || (4900 <=? a) && (a <? 4916) then ex_mem a else "x"%char.
Example ex_elsewhere : (forall e, ex_serve = Ret e -> forall x, covers (e_reads e) x -> ex_other x = ex_mem x) /\ ex_other 6000 <> ex_mem 6000.
Proof.
  split; [|discriminate]. intros e E x (a & n & I & R).
  assert (F : Forall (fun b => snd b = 1 /\ (5000 <= fst b < 5008 \/ 4900 <= fst b < 4916)) (e_reads e)).
  { revert E. generalize (eq_refl ex_serve). unfold ex_serve at 1. intros _ E. vm_compute in E. inversion E. cbn [e_reads].
    repeat (constructor; [cbn; lia|]). constructor. }
  pose proof (proj1 (Forall_forall _ _) F _ I) as [N D]. cbn [fst snd] in N, D. unfold ex_other. replace x with a by lia.
  destruct (Z.leb_spec 5000 a), (Z.ltb_spec a 5008), (Z.leb_spec 4900 a), (Z.ltb_spec a 4916); cbn; try reflexivity; lia.
Qed.
Print Assumptions request_reports_its_writes.
