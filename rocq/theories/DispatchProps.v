(** Claimed theorems about callback dispatch (C20, C21, C22). *)
From Coq Require Import String Ascii List ZArith Lia Bool FinFun.
From Verif Require Import Base RegionModel RegionSpec RegionProof DispatchModel.
Import ListNotations.
Open Scope Z_scope.

(** The numbering the documentation promises: seven built-in kinds, then the
    user's callbacks in the order of registration. *)
Definition numbering (bsz : Z -> Z) (users : list slot) : list slot :=
  [ SFn 0 (bsz 0) false; SFn 1 (bsz 1) false; SFn 2 (bsz 2) false; SFn 3 (bsz 3) true;
    SFn 4 (bsz 4) true; SFn 5 (bsz 5) true; SFn 6 (bsz 6) false ] ++ users.

Lemma set_nth_snoc {A} (l : list A) x v : set_nth (List.length l) v (l ++ [x]) = l ++ [v].
Proof. induction l as [|y l IH]; cbn; [reflexivity|]. f_equal. exact IH. Qed.

Lemma new_dispatcher_eq bsz : new_dispatcher bsz = Disp (numbering bsz []) 7.
Proof. reflexivity. Qed.

Lemma register_callback_eq l s :
  register_callback (Disp l (Z.of_nat (List.length l))) s
  = (Z.of_nat (List.length l), Disp (l ++ [s]) (Z.of_nat (List.length (l ++ [s])))).
Proof.
  unfold register_callback, enlarge_handlers; cbn [d_next d_handlers].
  assert (Z.of_nat (List.length l) <=? Z.of_nat (List.length l) + 1 = true) as -> by lia.
  replace (Z.to_nat (Z.of_nat (List.length l) + 1) - List.length l)%nat with 1%nat by lia.
  cbn [repeat]. rewrite Nat2Z.id, set_nth_snoc, app_length. cbn [List.length].
  replace (Z.of_nat (List.length l + 1)) with (Z.of_nat (List.length l) + 1) by lia. reflexivity.
Qed.

Lemma register_all_eq : forall ss l,
  register_all (Disp l (Z.of_nat (List.length l))) ss
  = (map (fun i => Z.of_nat (List.length l) + Z.of_nat i) (seq 0 (List.length ss)),
     Disp (l ++ ss) (Z.of_nat (List.length (l ++ ss)))).
Proof.
  induction ss as [|s r IH]; intros l.
  - cbn. rewrite app_nil_r. reflexivity.
  - cbn [register_all]. rewrite register_callback_eq, IH. rewrite <- app_assoc. cbn [app List.length seq map].
    f_equal. f_equal; [lia|]. rewrite <- seq_shift, map_map. apply map_ext. intros i.
    rewrite app_length. cbn [List.length]. lia.
Qed.

(** C21: the numbers handed out are 7, 8, 9, ...; afterwards every kind,
    built-in or user, denotes what was registered for it. *)
Theorem callback_numbers_stable : forall bsz users,
  let '(ns, d) := register_all (new_dispatcher bsz) users in
  ns = map (fun i => 7 + Z.of_nat i) (seq 0 (List.length users)) /\
  d_handlers d = numbering bsz users.
Proof.
  intros bsz users. rewrite new_dispatcher_eq.
  change (Disp (numbering bsz []) 7) with
    (Disp (numbering bsz []) (Z.of_nat (List.length (numbering bsz [])))).
  rewrite register_all_eq. split; reflexivity.
Qed.
Print Assumptions callback_numbers_stable.

(** C21: a number denotes the same handler after any further registrations,
    and no two registrations share a number. *)
Theorem callback_numbers_never_replaced : forall bsz users more,
  let d1 := snd (register_all (new_dispatcher bsz) users) in
  let d2 := snd (register_all (new_dispatcher bsz) (users ++ more)) in
  (forall k s, nth_error (d_handlers d1) k = Some s -> nth_error (d_handlers d2) k = Some s) /\
  NoDup (fst (register_all (new_dispatcher bsz) (users ++ more))) /\
  (forall n, In n (fst (register_all (new_dispatcher bsz) (users ++ more))) -> 7 <= n).
Proof.
  intros bsz users more d1 d2.
  pose proof (callback_numbers_stable bsz users) as H1.
  pose proof (callback_numbers_stable bsz (users ++ more)) as H2. unfold d1, d2.
  destruct (register_all (new_dispatcher bsz) users) as [ns1 e1].
  destruct (register_all (new_dispatcher bsz) (users ++ more)) as [ns2 e2].
  destruct H1 as [_ H1]. destruct H2 as [N2 H2]. cbn [fst snd]. rewrite H1, H2. subst ns2.
  split; [|split].
  - intros k s H. unfold numbering in *. rewrite app_assoc. rewrite nth_error_app1; [exact H|].
    apply nth_error_Some. congruence.
  - apply Injective_map_NoDup; [|apply seq_NoDup]. intros i j E. lia.
  - intros n Hn. apply in_map_iff in Hn as (i & <- & _). lia.
Qed.
Print Assumptions callback_numbers_never_replaced.

(** Bytes [a, a+n) as the list of addresses a program would load. *)
Definition addresses (a n : Z) : list Z := map (fun i => a + Z.of_nat i) (seq 0 (Z.to_nat n)).

Lemma memcpy_out_eq rd : forall n t p,
  memcpy_out rd t p n =
  (map (fun i => rd (t + i)%nat (p + Z.of_nat i)) (seq 0 n), (t + n)%nat,
   map (fun i => p + Z.of_nat i) (seq 0 n)).
Proof.
  induction n as [|n IH]; intros t p; cbn [memcpy_out seq map].
  - rewrite Nat.add_0_r. reflexivity.
  - rewrite IH. rewrite <- seq_shift, !map_map.
    rewrite !Nat.add_0_r, Z.add_0_r.
    replace (S t + n)%nat with (t + S n)%nat by lia. f_equal; [f_equal|].
    + f_equal. apply map_ext. intros i. f_equal; lia.
    + f_equal. apply map_ext. intros i. lia.
Qed.

Definition invoked (acts : list action) : list (Z * list ascii * option Z) :=
  flat_map (fun a => match a with AInvoke t b f => [(t, b, f)] | _ => [] end) acts.
Definition replies (acts : list action) : list (Z * option Z) :=
  flat_map (fun a => match a with AReply i f => [(i, f)] | _ => [] end) acts.
Definition closed (acts : list action) : list Z :=
  flat_map (fun a => match a with AClose f => [f] | _ => [] end) acts.
Definition loaded (acts : list action) : list Z :=
  flat_map (fun a => match a with ALoad x => [x] | _ => [] end) acts.

(** The request is well formed for handler [tag]: the kind is registered, the
    size is right and the argument block lies in the sandbox's heap. *)
Definition well_formed (bsz : Z -> Z) (users : list slot) (shm size hdr : Z) (rq : crequest)
  (tag : Z) (takes : bool) : Prop :=
  nth_error (numbering bsz users) (Z.to_nat (cr_kind rq)) = Some (SFn tag (cr_size rq) takes) /\
  shm + 2 * hdr <= cr_data rq /\ cr_data rq < shm + size /\ cr_data rq + cr_size rq <= shm + size.

Lemma fm_loads {A} (f : action -> list A) tr : (forall a, f (ALoad a) = []) ->
  flat_map f (map ALoad tr) = [].
Proof. intros H. induction tr as [|x tr IH]; cbn; [reflexivity|]. rewrite H. exact IH. Qed.

Lemma loaded_loads tr : loaded (map ALoad tr) = tr.
Proof. unfold loaded. induction tr as [|x tr IH]; cbn; [reflexivity|]. f_equal. exact IH. Qed.

Definition opt_list (fd : option Z) : list Z := match fd with Some f => [f] | None => [] end.

Lemma fm_close f : (closed (close_opt f) = opt_list f) /\ invoked (close_opt f) = [] /\
  replies (close_opt f) = [] /\ loaded (close_opt f) = [].
Proof. destruct f; cbn; auto. Qed.

(** C20, C22: a well-formed request runs exactly its handler, once, on the
    bytes loaded once each, in order, from the argument block, and its result
    is the reply.  The received descriptor is handed to a handler that takes
    one, else closed. *)
Theorem callback_well_formed_runs_once :
  forall bsz users shm size hdr fn rd rq in_fd tag takes,
  mapping_ok shm size hdr -> is_word (cr_kind rq) -> is_word (cr_size rq) -> is_word (cr_data rq) ->
  well_formed bsz users shm size hdr rq tag takes ->
  let d := snd (register_all (new_dispatcher bsz) users) in
  let acts := handle d (library_heap shm size hdr) fn rd (Some (rq, in_fd)) true in
  let args := map (fun i => rd i (cr_data rq + Z.of_nat i)) (seq 0 (Z.to_nat (cr_size rq))) in
  let given := if takes then in_fd else None in
  invoked acts = [(tag, args, given)] /\
  replies acts = [(r_int (fn tag args given), r_fd (fn tag args given))] /\
  loaded acts = addresses (cr_data rq) (cr_size rq) /\
  closed acts = (if takes then [] else opt_list in_fd) ++ opt_list (r_fd (fn tag args given)).
Proof.
  intros bsz users shm size hdr fn rd rq in_fd tag takes M Wk Ws Wd (N & B) d acts args given.
  pose proof (callback_numbers_stable bsz users) as H. unfold acts, d.
  destruct (register_all (new_dispatcher bsz) users) as [ns e]. destruct H as [_ H]. cbn [snd].
  unfold handle, select_handler. rewrite H.
  assert (L : cr_kind rq <? Z.of_nat (List.length (numbering bsz users)) = true).
  { assert (X : (Z.to_nat (cr_kind rq) < List.length (numbering bsz users))%nat)
      by (apply nth_error_Some; congruence). unfold is_word in Wk. lia. }
  rewrite L, N. unfold invoke. rewrite Z.eqb_refl. cbn [negb].
  assert (C : contains (library_heap shm size hdr) (cr_data rq) (cr_size rq) = true)
    by (apply contains_iff; auto).
  rewrite C. cbn [negb]. rewrite memcpy_out_eq.
  replace (map (fun i : nat => rd (0 + i)%nat (cr_data rq + Z.of_nat i)) (seq 0 (Z.to_nat (cr_size rq))))
    with args by reflexivity.
  destruct (fm_close in_fd) as (A1 & A2 & A3 & A4).
  assert (Q : forall f, (closed (close_opt (r_fd (f : result))) = opt_list (r_fd f)) /\ invoked (close_opt (r_fd f)) = [] /\
    replies (close_opt (r_fd f)) = [] /\ loaded (close_opt (r_fd f)) = []) by (intros; apply fm_close).
  assert (AP : forall x y, invoked (x ++ y) = invoked x ++ invoked y /\ replies (x ++ y) = replies x ++ replies y /\
    loaded (x ++ y) = loaded x ++ loaded y /\ closed (x ++ y) = closed x ++ closed y).
  { intros x y. unfold invoked, replies, loaded, closed. rewrite !flat_map_app. auto. }
  set (tr := map (fun i : nat => cr_data rq + Z.of_nat i) (seq 0 (Z.to_nat (cr_size rq)))) in *.
  assert (LD : invoked (map ALoad tr) = [] /\ replies (map ALoad tr) = [] /\
    loaded (map ALoad tr) = tr /\ closed (map ALoad tr) = []).
  { rewrite loaded_loads. unfold invoked, replies, closed. rewrite !fm_loads by reflexivity. auto. }
  destruct LD as (L1 & L2 & L3 & L4).
  destruct (Q (fn tag args given)) as (B1 & B2 & B3 & B4). unfold given in *.
  destruct takes; cbn [close_opt];
    repeat match goal with |- context [invoked (?x ++ ?y)] => rewrite (proj1 (AP x y)) end;
    repeat match goal with |- context [replies (?x ++ ?y)] => rewrite (proj1 (proj2 (AP x y))) end;
    repeat match goal with |- context [loaded (?x ++ ?y)] => rewrite (proj1 (proj2 (proj2 (AP x y)))) end;
    repeat match goal with |- context [closed (?x ++ ?y)] => rewrite (proj2 (proj2 (proj2 (AP x y)))) end;
    rewrite ?L1, ?L2, ?L3, ?L4, ?A1, ?A2, ?A3, ?A4, ?B1, ?B2, ?B3, ?B4; cbn [app invoked replies loaded closed flat_map];
    rewrite ?app_nil_r; auto.
Qed.
Print Assumptions callback_well_formed_runs_once.

(** C20: any other request runs nothing, reads nothing, is answered with
    -ENOSYS, and its descriptor is closed. *)
Theorem callback_malformed_runs_nothing :
  forall bsz users shm size hdr fn rd rq in_fd,
  mapping_ok shm size hdr -> is_word (cr_kind rq) -> is_word (cr_size rq) -> is_word (cr_data rq) ->
  (forall tag takes, ~ well_formed bsz users shm size hdr rq tag takes) ->
  let d := snd (register_all (new_dispatcher bsz) users) in
  let acts := handle d (library_heap shm size hdr) fn rd (Some (rq, in_fd)) true in
  invoked acts = [] /\ replies acts = [(-38, None)] /\ loaded acts = [] /\ closed acts = opt_list in_fd.
Proof.
  intros bsz users shm size hdr fn rd rq in_fd M Wk Ws Wd NW d acts.
  pose proof (callback_numbers_stable bsz users) as H. unfold acts, d.
  destruct (register_all (new_dispatcher bsz) users) as [ns e]. destruct H as [_ H]. cbn [snd].
  assert (G : forall acts',
    acts' = close_opt in_fd ++ [AReply (- ENOSYS) None] ++ [] ++ [] \/
    acts' = [] ++ [AReply (- ENOSYS) None] ++ [] ++ close_opt in_fd ->
    invoked acts' = [] /\ replies acts' = [(-38, None)] /\ loaded acts' = [] /\ closed acts' = opt_list in_fd).
  { intros acts' [->| ->]; destruct in_fd; cbn; auto. }
  unfold handle, select_handler. rewrite H.
  destruct (cr_kind rq <? Z.of_nat (List.length (numbering bsz users))) eqn:L; [|apply G; right; reflexivity].
  destruct (nth_error (numbering bsz users) (Z.to_nat (cr_kind rq))) as [s|] eqn:N; [|apply G; right; reflexivity].
  unfold invoke. destruct s as [|tag sz takes]; [apply G; left; reflexivity|].
  destruct (Z.eqb_spec (cr_size rq) sz) as [<-|]; cbn [negb]; [|apply G; left; reflexivity].
  destruct (contains (library_heap shm size hdr) (cr_data rq) (cr_size rq)) eqn:C; cbn [negb].
  2:{ apply G; left; reflexivity. }
  exfalso. apply (NW tag takes). split; [exact N|]. apply contains_iff in C; auto.
Qed.
Print Assumptions callback_malformed_runs_nothing.

(** C20: without a message nothing happens; when the reply cannot be sent the
    child is killed instead. *)
Theorem callback_reply_or_terminate : forall d h fn rd msg ok,
  let acts := handle d h fn rd msg ok in
  match msg with
  | None => acts = []
  | Some _ => if ok then List.length (replies acts) = 1%nat /\ ~ In ATerminate acts
              else replies acts = [] /\ In ATerminate acts
  end.
Proof.
  intros d h fn rd [[rq in_fd]|] ok acts; [|reflexivity]. unfold acts, handle. clear acts.
  assert (P : replies (snd (fst (select_handler d h fn rd rq in_fd))) = [] /\
              ~ In ATerminate (snd (fst (select_handler d h fn rd rq in_fd)))).
  { unfold select_handler. destruct (_ <? _); [|cbn; auto]. destruct (nth_error _ _) as [s|]; [|cbn; auto].
    assert (K : replies (close_opt in_fd) = [] /\ ~ In ATerminate (close_opt in_fd)).
    { destruct in_fd; cbn; split; auto; intros [X|X]; [discriminate|auto]. }
    unfold invoke. destruct s as [|tag sz takes]; [exact K|].
    destruct (negb (_ =? _)); [exact K|]. destruct (negb (contains _ _ _)); [exact K|].
    destruct (memcpy_out rd 0 (cr_data rq) (Z.to_nat sz)) as [[bytes u] tr].
    assert (L : replies (map ALoad tr) = [] /\ ~ In ATerminate (map ALoad tr)).
    { split; [apply fm_loads; reflexivity|]. intros X. apply in_map_iff in X as (? & ? & _). discriminate. }
    destruct takes; cbn [snd fst]; unfold replies in *; rewrite !flat_map_app.
    - destruct L as [-> L2]. split; [reflexivity|]. rewrite in_app_iff. intros [X|[X|[]]]; [auto|discriminate].
    - destruct L as [-> L2], K as [-> K2]. split; [reflexivity|].
      rewrite !in_app_iff. intros [X|[[X|[]]|X]]; [auto|discriminate|auto]. }
  destruct (select_handler d h fn rd rq in_fd) as [[ret acts] rest].
  cbn [fst snd] in P. destruct P as [P1 P2].
  assert (Kc : forall f, replies (close_opt f) = [] /\ ~ In ATerminate (close_opt f)).
  { intros [f|]; cbn; split; auto; intros [X|X]; [discriminate|auto]. }
  destruct (Kc (r_fd ret)) as [K1 K2]. destruct (Kc rest) as [L1 L2].
  unfold replies in *. rewrite !flat_map_app, P1, K1, L1.
  destruct ok; cbn [flat_map app List.length].
  - split; [reflexivity|]. rewrite in_app_iff. cbn [app In].
    intros [X|[X|X]]; [auto|discriminate|]. apply in_app_iff in X as [X|X]; auto.
  - split; [reflexivity|]. apply in_app_iff. right. left. reflexivity.
Qed.
Print Assumptions callback_reply_or_terminate.

(** C22: what happens depends on sandbox memory only through the first load of
    each argument byte; no address is loaded twice. *)
Theorem callback_single_snapshot : forall d h fn rd1 rd2 rq in_fd ok,
  (forall i, (i < Z.to_nat (cr_size rq))%nat ->
     rd1 i (cr_data rq + Z.of_nat i) = rd2 i (cr_data rq + Z.of_nat i)) ->
  handle d h fn rd1 (Some (rq, in_fd)) ok = handle d h fn rd2 (Some (rq, in_fd)) ok /\
  NoDup (loaded (handle d h fn rd1 (Some (rq, in_fd)) ok)).
Proof.
  intros d h fn rd1 rd2 rq in_fd ok H.
  assert (Ld : forall f, loaded (close_opt f) = []) by (intros [f|]; reflexivity).
  assert (I : forall s, invoke h fn rd1 s rq in_fd = invoke h fn rd2 s rq in_fd /\
                        NoDup (loaded (snd (invoke h fn rd1 s rq in_fd)))).
  { intros s. unfold invoke. destruct s as [|tag sz takes]; [cbn [snd]; rewrite Ld; split; [reflexivity|constructor]|].
    destruct (Z.eqb_spec (cr_size rq) sz) as [<-|]; cbn [negb];
      [|cbn [snd]; rewrite Ld; split; [reflexivity|constructor]].
    destruct (negb (contains h (cr_data rq) (cr_size rq))); [cbn [snd]; rewrite Ld; split; [reflexivity|constructor]|].
    rewrite !memcpy_out_eq.
    assert (E : map (fun i => rd1 (0 + i)%nat (cr_data rq + Z.of_nat i)) (seq 0 (Z.to_nat (cr_size rq)))
              = map (fun i => rd2 (0 + i)%nat (cr_data rq + Z.of_nat i)) (seq 0 (Z.to_nat (cr_size rq)))).
    { apply map_ext_in. intros i Hi. apply in_seq in Hi. apply H. lia. }
    rewrite E. split; [reflexivity|].
    assert (ND : NoDup (map (fun i => cr_data rq + Z.of_nat i) (seq 0 (Z.to_nat (cr_size rq))))).
    { apply Injective_map_NoDup; [intros i j X; lia|apply seq_NoDup]. }
    destruct takes; cbn [snd]; unfold loaded; rewrite !flat_map_app; fold (loaded (close_opt in_fd));
      rewrite ?Ld; fold (loaded (map ALoad (map (fun i : nat => cr_data rq + Z.of_nat i) (seq 0 (Z.to_nat (cr_size rq))))));
      rewrite loaded_loads; cbn [flat_map app]; rewrite ?app_nil_r; exact ND. }
  unfold handle, select_handler.
  destruct (cr_kind rq <? Z.of_nat (List.length (d_handlers d))).
  - destruct (nth_error (d_handlers d) (Z.to_nat (cr_kind rq))) as [s|].
    + destruct (I s) as [I1 I2]. rewrite <- I1.
      destruct (invoke h fn rd1 s rq in_fd) as [r a]. cbn [snd] in I2. split; [reflexivity|].
      unfold loaded. rewrite !flat_map_app. fold (loaded a) (loaded (close_opt (r_fd r))).
      rewrite Ld. destruct ok; cbn; rewrite app_nil_r; exact I2.
    + split; [reflexivity|]. unfold loaded. rewrite !flat_map_app. fold (loaded (close_opt in_fd)).
      destruct ok, in_fd; cbn; constructor.
  - split; [reflexivity|]. unfold loaded. rewrite !flat_map_app. fold (loaded (close_opt in_fd)).
    destruct ok, in_fd; cbn; constructor.
Qed.
Print Assumptions callback_single_snapshot.

(** A concrete sandbox with two user callbacks; kind 8 is the second. *)
Example callback_instance :
  let users := [SFn 100 8 false; SFn 101 4 true] in
  mapping_ok 0x10000 0x10000 256 /\
  well_formed (fun _ => 16) users 0x10000 0x10000 256 (CRequest 8 4 0x12000) 101 true /\
  handle (snd (register_all (new_dispatcher (fun _ => 16)) users)) (library_heap 0x10000 0x10000 256)
    (fun tag args fd => Result (tag + Z.of_nat (List.length args)) None) (fun _ _ => nul)
    (Some (CRequest 8 4 0x12000, Some 9)) true
  = [ALoad 0x12000; ALoad 0x12001; ALoad 0x12002; ALoad 0x12003;
     AInvoke 101 [nul; nul; nul; nul] (Some 9); AReply 105 None].
Proof.
  split; [unfold mapping_ok, W; lia|]. split; [|vm_compute; reflexivity].
  split; [reflexivity|]. cbn. lia.
Qed.

Example callback_malformed_instance :
  forall tag takes, ~ well_formed (fun _ => 16) [] 0x10000 0x10000 256 (CRequest 7 16 0x12000) tag takes.
Proof. intros tag takes [N _]. cbn in N. discriminate. Qed.
