(** Proofs about libraries used by several threads.  Each system call of a request
    is, for LibsModel, the program opening or closing a descriptor of its own; so
    the invariant of LibsProof carries over. *)
From Coq Require Import String Ascii List ZArith Lia Bool Permutation Arith.
From Verif Require Import Base PathModel PathSpec PathProof FileTreeModel FileTreeSpec FileTreeProof FileTreeProps RegionModel RegionSpec RegionProof
  DispatchModel DispatchProps HostCallsModel HostCallsSpec HostCallsProof HostCallsProps NetProof NetProps ChildCallsModel EffectsModel EffectsSpec EffectsProof EffectsProps
  HandleModel OwnModel OwnSpec OwnProof OwnProps GateModel GateSpec GateProof GateProps LibsModel LibsSpec LibsProof LibsProps ParModel ParSpec.
Import ListNotations.
Local Open Scope Z_scope.

(** ** The steps of one request *)

(** [G]: the number of the descriptor that came with the request while it is open;
    [O]: the numbers it opened and has not closed. *)
Section TIDY.
Variables (t : FileTreeModel.dir) (hist : list (netop * policy)) (leak : bool) (sent : option Z).
Definition plus (r : Z * Z) (O : list Z) : list Z := if 0 <=? fst r then fst r :: O else O.
Inductive tidy : list Z -> list Z -> list micro -> Prop :=
| t_end O : (leak = false -> O = []) -> tidy [] O []
| t_reach G O o r l : reach t o -> tidy G (plus r O) l -> tidy G O (MAsk o r :: l)
| t_fstat G O f b r l : file_fd t f -> tidy G O l -> tidy G O (MAsk (KFstat f b) r :: l)
| t_look G O f o r l : In f O -> look_at f o -> tidy G O l -> tidy G O (MAsk o r :: l)
| t_close G O f r l : In f O -> tidy G (remove Z.eq_dec f O) l -> tidy G O (MAsk (KClose f) r :: l)
| t_shut O f r l : tidy [] O l -> tidy [f] O (MAsk (KClose f) r :: l)
| t_names G O who a b c r l : may_net hist who NGetAddrInfo -> tidy G O l -> tidy G O (MAsk (KNet who NGetAddrInfo (NNames a b c)) r :: l)
| t_net O who op f buf len r l : may_net hist who op -> tidy [f] O l -> tidy [f] O (MAsk (KNet who op (NAddr f buf len)) r :: l)
| t_sent G O f path flags mode r l : (G = [f] \/ G = [] /\ f = -1 /\ sent = None) -> tidy G (plus r O) l ->
    tidy G O (MAsk (KOpenat2 f path flags mode 8) r :: l)
| t_reply G O i fd l : (forall n, fd = Some n -> In n O) -> tidy G O l -> tidy G O (MReply i fd :: l)
| t_kill G O l : tidy G O l -> tidy G O (MKill :: l).
End TIDY.

Lemma tidy_nil t hist leak sent t' hist' G O : tidy t hist leak sent G O [] -> tidy t' hist' leak sent G O [].
Proof. inversion 1; subst. constructor. auto. Qed.

Definition ends (l : list micro) : list bool := flat_map (fun m => match m with MAsk _ _ => [] | MReply _ _ => [true] | MKill => [false] end) l.
Lemma ends_app a b : ends (a ++ b) = ends a ++ ends b.
Proof. apply flat_map_app. Qed.
Lemma ends_asking k ops : forall b, ends (asking k b ops) = [].
Proof. induction ops as [|o ops IH]; intros b; cbn; auto. Qed.

Section SCRIPT.
Variables (shm size hdr : Z) (t : FileTreeModel.dir) (hist : list (netop * policy)) (q : request).
Hypothesis M : mapping_ok shm size hdr.
Hypothesis Wd : forall rq fd, q_msg q = Some (rq, fd) -> is_word (cr_kind rq) /\ is_word (cr_size rq) /\ is_word (cr_data rq).
Local Notation h := (library_heap shm size hdr).
Local Notation k := (q_kernel q).
Local Notation np := (policy_after hist).
Local Notation rep r := (if q_sends q then [AReply (r_int r) (r_fd r)] else [ATerminate]).

Definition closing_steps (b : list kop) (f : option Z) : list micro := map (fun f => MAsk (KClose f) (k b (KClose f))) (opt_list f).
Definition rep_step (r : DispatchModel.result) : micro := if q_sends q then MReply (r_int r) (r_fd r) else MKill.

Lemma script_close b f l : script h t np q b (close_opt f ++ l) =
  obind (script h t np q (b ++ map KClose (opt_list f)) l) (fun m => Ret (closing_steps b f ++ m)).
Proof.
  destruct f; cbn [close_opt app opt_list map closing_steps].
  - cbn [script obind]. destruct (script _ _ _ _ _ _); reflexivity.
  - rewrite app_nil_r. destruct (script _ _ _ _ _ _); reflexivity.
Qed.
Lemma script_rep b r l : script h t np q b (rep r ++ l) = obind (script h t np q b l) (fun m => Ret (rep_step r :: m)).
Proof. unfold rep_step. destruct (q_sends q); cbn [app script obind]; destruct (script _ _ _ _ _ _); reflexivity. Qed.
Lemma script_loads tr b l : script h t np q b (map ALoad tr ++ l) = script h t np q b l.
Proof. induction tr as [|a tr IH]; [reflexivity|]. cbn [map app script obind]. rewrite IH. clear IH. destruct (script _ _ _ _ _ _); reflexivity. Qed.

Definition sent_nums (f : option Z) : list Z := match f with Some n => [n] | None => [] end.

Lemma tidy_closing leak s b f O l : tidy t hist leak s [] O l -> tidy t hist leak s (sent_nums f) O (closing_steps b f ++ l).
Proof. intros T. destruct f; cbn; [apply t_shut|]; exact T. Qed.
Lemma tidy_rep leak s G O r l : (forall n, r_fd r = Some n -> In n O) -> tidy t hist leak s G O l -> tidy t hist leak s G O (rep_step r :: l).
Proof. intros A T. unfold rep_step. destruct (q_sends q); constructor; auto. Qed.
Lemma ends_closing b f : ends (closing_steps b f) = [].
Proof. destruct f; reflexivity. Qed.
Lemma ends_rep r l : ends (rep_step r :: l) = q_sends q :: ends l.
Proof. unfold rep_step. destruct (q_sends q); reflexivity. Qed.

Definition good_script (rq : crequest) (sent : option Z) (l : list micro) : Prop :=
  tidy t hist (cr_kind rq =? 3) sent (sent_nums sent) [] l /\ ends l = [q_sends q].

Lemma remove_only (r : Z) : remove Z.eq_dec r [r] = [].
Proof. cbn. destruct (Z.eq_dec r r); congruence. Qed.

Lemma script_given sent rq given closing r ops :
  (given = sent /\ closing = None \/ given = None /\ closing = sent) -> shape t k hist given ops r ->
  exists l, obind (script h t np q ops (close_opt closing ++ rep r ++ close_opt (r_fd r))) (fun m => Ret (asking k [] ops ++ m)) = Ret l /\
    good_script rq sent l.
Proof.
  intros D S. rewrite script_close, script_rep. rewrite <- (app_nil_r (close_opt (r_fd r))), script_close. cbn [script obind].
  eexists. split; [reflexivity|]. split; [|rewrite !ends_app, ends_asking, ends_closing, ends_rep, ends_app, ends_closing; reflexivity].
  rewrite app_nil_r.
  assert (BEFORE : forall f, given = Some f -> sent = Some f /\ closing = None) by (intros f ->; destruct D as [[D1 D2]|[D1 D2]]; [auto|discriminate]).
  assert (AFTER : given = None -> closing = sent) by (intros ->; destruct D as [[D1 D2]|[D1 D2]]; congruence).
  assert (REST : forall i, tidy t hist (cr_kind rq =? 3) sent [] [] (rep_step (Result i None) :: closing_steps ((ops ++ map KClose (opt_list closing))) None)).
  { intros i. apply tidy_rep; [discriminate|]. cbn [closing_steps opt_list map app]. constructor. auto. }
  destruct S as [i G|i f G|i f b G F|o G R P|i o G R P|i o x G R P L|i who hs G N (a & b & c & ->)|i who op f buf len G N]; cbn [r_fd] in *; cbn [asking app].
  - rewrite (AFTER G) in *. apply tidy_closing. apply REST.
  - destruct (BEFORE f G) as [-> ->]. cbn [sent_nums]. apply t_shut. cbn [closing_steps opt_list map app]. apply REST.
  - rewrite (AFTER G) in *. apply t_fstat; [exact F|]. apply tidy_closing. apply REST.
  - rewrite (AFTER G). apply t_reach; [exact R|]. unfold plus. destruct (Z.leb_spec 0 (fst (k [] o))) as [_|]; [|lia]. apply tidy_closing.
    apply tidy_rep; [intros n [= <-]; left; reflexivity|]. cbn [closing_steps opt_list map]. apply t_close; [left; reflexivity|]. rewrite remove_only. constructor. auto.
  - rewrite (AFTER G) in *. apply t_reach; [exact R|]. unfold plus. destruct (Z.leb_spec 0 (fst (k [] o))) as [|_]; [lia|]. apply tidy_closing. apply REST.
  - rewrite (AFTER G) in *. apply t_reach; [exact R|]. unfold plus. destruct (Z.leb_spec 0 (fst (k [] o))) as [_|]; [|lia].
    eapply t_look; [left; reflexivity|exact L|]. apply t_close; [left; reflexivity|]. rewrite remove_only. apply tidy_closing. apply REST.
  - rewrite (AFTER G) in *. apply t_names; [exact N|]. apply tidy_closing. apply REST.
  - destruct (BEFORE f G) as [-> ->]. cbn [sent_nums]. apply t_net; [exact N|]. apply t_shut. cbn [closing_steps opt_list map app]. apply REST.
Qed.

Lemma script_leak sent rq r ops : cr_kind rq = 3 -> shape_openat k sent ops r ->
  exists l, obind (script h t np q ops (rep r ++ close_opt (r_fd r))) (fun m => Ret (asking k [] ops ++ m)) = Ret l /\
    good_script rq sent l.
Proof.
  intros K3 [path flags mode f]. rewrite script_rep. cbn [r_fd close_opt script obind].
  eexists. split; [reflexivity|]. split; [|rewrite !ends_app, ends_asking, ends_rep; reflexivity].
  rewrite K3. cbn [asking app]. change (3 =? 3) with true.
  assert (E : forall O G, tidy t hist true sent G O [rep_step (Result (fst (k [] (KOpenat2 f path flags mode 8))) None)] <-> G = []).
  { intros O G. split.
    - unfold rep_step. destruct (q_sends q); intros X; inversion X; subst; match goal with Y : tidy _ _ _ _ _ _ [] |- _ => inversion Y; reflexivity end.
    - intros ->. apply tidy_rep; [discriminate|]. constructor. discriminate. }
  unfold f in *. destruct sent as [n|]; cbn [sent_nums opt_list map asking app].
  - apply t_sent; [auto|]. apply t_shut. apply E. reflexivity.
  - apply t_sent; [auto|]. apply E. reflexivity.
Qed.

Lemma script_fine : exists l,
  script h t np q [] (DispatchModel.handle (new_dispatcher tuple_size) h
     (builtin_result k t np h (q_mem1 q) (q_mem2 q) (q_hints q) (q_resolver q) (q_alloc q)) (q_args q) (q_msg q) (q_sends q)) = Ret l /\
  match q_msg q with None => l = [] | Some (rq, sent) => good_script rq sent l end.
Proof.
  unfold handle. destruct (q_msg q) as [[rq sent]|] eqn:Qm; [|exists []; split; reflexivity]. destruct (Wd _ _ eq_refl) as (Wk & Ws & Wa).
  assert (REF : forall a rest, (a = close_opt sent /\ rest = None) \/ (a = [] /\ rest = sent) ->
    exists l, script h t np q [] (a ++ rep no_result ++ close_opt (r_fd no_result) ++ close_opt rest) = Ret l /\ good_script rq sent l).
  { intros a rest [[-> ->]|[-> ->]].
    - rewrite script_close, script_rep. cbn [close_opt r_fd no_result app script obind]. eexists. split; [reflexivity|].
      split; [|rewrite !ends_app, ends_closing, ends_rep; reflexivity]. apply tidy_closing. apply tidy_rep; [discriminate|]. constructor. auto.
    - cbn [app]. rewrite script_rep. cbn [close_opt r_fd no_result app]. rewrite <- (app_nil_r (close_opt sent)), script_close. cbn [script obind]. eexists. split; [reflexivity|].
      split; [|rewrite ends_rep, ends_app, ends_closing; reflexivity]. apply tidy_rep; [discriminate|]. apply tidy_closing. constructor. auto. }
  unfold select_handler.
  assert (DH : d_handlers (new_dispatcher tuple_size) =
    map (fun tag => SFn tag (tuple_size tag) (takes tag)) [0; 1; 2; 3; 4; 5; 6]) by reflexivity.
  rewrite DH. rewrite map_length. change (Z.of_nat (length [0; 1; 2; 3; 4; 5; 6])) with 7.
  destruct (Z.ltb_spec (cr_kind rq) 7) as [K7|K7]; [|apply (REF [] sent); auto].
  assert (NT : nth_error [0; 1; 2; 3; 4; 5; 6] (Z.to_nat (cr_kind rq)) = Some (cr_kind rq)).
  { unfold is_word in Wk. assert (cr_kind rq = 0 \/ cr_kind rq = 1 \/ cr_kind rq = 2 \/ cr_kind rq = 3 \/ cr_kind rq = 4 \/ cr_kind rq = 5 \/ cr_kind rq = 6) as C by lia.
    destruct C as [-> |[-> |[-> |[-> |[-> |[-> | ->]]]]]]; reflexivity. }
  apply (map_nth_error (fun tag => SFn tag (tuple_size tag) (takes tag))) in NT. rewrite NT. clear NT DH.
  unfold invoke.
  destruct (Z.eqb_spec (cr_size rq) (tuple_size (cr_kind rq))) as [Ez|]; cbn [negb]; [|apply (REF (close_opt sent) None); auto].
  destruct (contains h (cr_data rq) (cr_size rq)) eqn:C; cbn [negb]; [|apply (REF (close_opt sent) None); auto].
  clear REF. destruct (memcpy_out (q_args q) 0 (cr_data rq) (Z.to_nat (tuple_size (cr_kind rq)))) as [[bytes n] tr] eqn:MC.
  pose proof (proj1 (memcpy_out_facts _ _ _ _ _ _ _ MC)) as Lb. unfold is_word in Wk. assert (T : 0 <= cr_kind rq < 7) by lia.
  set (given := if takes (cr_kind rq) then sent else None).
  set (closing := if takes (cr_kind rq) then None else sent).
  destruct (builtin_shape t k hist shm size hdr (q_mem1 q) (q_mem2 q) (q_hints q) (q_resolver q) (q_alloc q) M (cr_kind rq) bytes given T Lb)
    as (r & e & E & Sh); [unfold given; intros ->; reflexivity|].
  assert (BR : builtin_result k t np h (q_mem1 q) (q_mem2 q) (q_hints q) (q_resolver q) (q_alloc q) (cr_kind rq) bytes given = r)
    by (unfold builtin_result; rewrite E; reflexivity).
  assert (X : exists l, obind (script h t np q (e_ops e) (close_opt closing ++ rep r ++ close_opt (r_fd r))) (fun m => Ret (asking k [] (e_ops e) ++ m)) = Ret l /\
     good_script rq sent l).
  { destruct Sh as [[N3 Sh]|[K3 Sh]].
    - apply (script_given sent rq given closing); [|exact Sh]. unfold given, closing. destruct (takes (cr_kind rq)); auto.
    - unfold given, closing in *. rewrite K3 in *. apply (script_leak sent rq r (e_ops e)); auto. }
  destruct X as (l & X & GS). exists l. split; [|exact GS].
  assert (Y : script h t np q [] (map ALoad tr ++ (AInvoke (cr_kind rq) bytes given :: close_opt closing ++ rep r ++ close_opt (r_fd r))) = Ret l).
  { rewrite script_loads. cbn [script]. rewrite E. cbn [obind app]. rewrite <- X. reflexivity. }
  rewrite <- Y. unfold given, closing in *. clear Y X.
  destruct (takes (cr_kind rq)); rewrite BR; cbn [close_opt app]; rewrite <- ?app_assoc, ?app_nil_r; reflexivity.
Qed.
End SCRIPT.

(** ** The descriptor table under single steps *)
Section TABLE.
Variable debug : bool.
Local Notation runs := (runs debug).
Local Notation linv := (linv debug).
Local Notation prog es := (program (all es)).

Lemma linv_same ges w w' : linv ges w -> (forall j, lib w' j = lib w j) -> linv ges w'.
Proof.
  intros V S. assert (F : fresh w' = fresh w) by exact (f_equal (fun g => next (own g)) (S 0%nat)).
  assert (X : forall j u, exported w' j u <-> exported w j u) by (intros j u; unfold exported; rewrite S; reflexivity).
  constructor.
  - intros i. rewrite S. exact (v_runs _ _ _ V i).
  - intros i. rewrite S. exact (v_net _ _ _ V i).
  - intros i j u A B. apply X in A, B. exact (v_apart _ _ _ V i j u A B).
  - intros u O N C. unfold closings in C. rewrite S in C. destruct (v_some _ _ _ V u O N C) as [i E]. exists i. apply X. exact E.
  - rewrite F. exact (v_opened _ _ _ V).
  - rewrite F. exact (v_closing _ _ _ V).
  - rewrite F. exact (v_adding _ _ _ V).
Qed.

Lemma drop_incl n (k : list (Z * nat)) x : In x (drop n k) -> In x k.
Proof. induction k as [|[m w] k IH]; cbn; [tauto|]. destruct (m =? n); cbn; tauto. Qed.
Lemma destroy_incl fds : forall k c k' c', destroy debug fds k c = Some (k', c') -> (forall x, In x k' -> In x k) /\ exists more, c' = c ++ more.
Proof.
  induction fds as [|n fds IH]; intros k c k' c' D; cbn [destroy] in D.
  - injection D as <- <-. split; [auto|]. exists []. symmetry. apply app_nil_r.
  - destruct (n <? 0); [eapply IH; exact D|]. destruct (lookup n k) as [u|].
    + destruct (IH _ _ _ _ D) as [A (more & B)]. split; [intros x I1; eapply drop_incl, A, I1|]. exists ([(n, Some u)] ++ more). rewrite app_assoc. exact B.
    + destruct debug; [discriminate|]. destruct (IH _ _ _ _ D) as [A (more & B)]. split; [exact A|]. exists ([(n, None)] ++ more). rewrite app_assoc. exact B.
Qed.
Lemma step_incl o s s' r : step debug o s = (s', r) ->
  (forall n u, In (n, u) (kern s') -> In (n, u) (kern s) \/ u = next s) /\ exists more, closes s' = closes s ++ more.
Proof.
  assert (Same : (forall n u, In (n, u) (kern s) -> In (n, u) (kern s) \/ u = next s) /\ exists more, closes s = closes s ++ more).
  { split; [auto|]. exists []. symmetry. apply app_nil_r. }
  destruct o as [n|p file who|u|]; cbn [step]; intros E.
  - injection E as <- <-. cbn [kern closes]. split; [|exists []; symmetry; apply app_nil_r].
    intros m u I1. apply in_snoc in I1 as [I1|I1]; [auto|]. injection I1 as _ <-. auto.
  - destruct (tree s); [|injection E as <- <-; exact Same]. cbv zeta in E. destruct (own_handle _ _ _) as [[[ok t'] dead]| | | |]; try (injection E as <- <-; exact Same).
    destruct (destroy _ _ _ _) as [[k c]|] eqn:D; injection E as <- <-; [|exact Same]. apply destroy_incl in D as [A B]. cbn [kern closes]. auto.
  - destruct (destroy _ _ _ _) as [[k c]|] eqn:D; injection E as <- <-; [|exact Same]. apply destroy_incl in D as [A B]. cbn [kern closes]. auto.
  - destruct (tree s); [|injection E as <- <-; exact Same].
    destruct (destroy _ _ _ _) as [[k c]|] eqn:D; injection E as <- <-; [|exact Same]. apply destroy_incl in D as [A B]. cbn [kern closes]. auto.
Qed.

Lemma table_of w i : kern (own (lib w i)) = table w.
Proof. reflexivity. Qed.
Lemma table_nodup ges w : linv ges w -> NoDup (map fst (table w)) /\ NoDup (map snd (table w)) /\ forall n u, In (n, u) (table w) -> 0 <= n /\ (u < fresh w)%nat.
Proof.
  intros V. destruct (v_runs _ _ _ V 0%nat) as (e & R & _). destruct (runs_Inv _ _ _ R) as (kt & km & kc & I). rewrite <- (table_of w 0).
  split; [exact (i_num _ _ _ _ _ I)|]. split; [exact (NoDup_app_l _ _ (i_ids_nodup _ _ _ _ _ I))|]. intros n u I1.
  split; [exact (i_nonneg _ _ _ _ _ I _ _ I1)|]. apply (in_map snd) in I1. cbn in I1.
  assert (X : In u (seq 0 (next (own (lib w 0))))) by (rewrite <- (i_ids _ _ _ _ _ I); apply in_or_app; auto). apply in_seq in X. exact (proj2 X).
Qed.
Lemma held_number ges w u : linv ges w -> holds (prog ges) u -> exists n, lookup n (table w) = Some u.
Proof.
  intros V H. destruct (v_runs _ _ _ V 0%nat) as (e & R & Hi). destruct (runs_Inv _ _ _ R) as (kt & km & kc & I).
  destruct (number_held _ _ _ _ _ u I (Hi u H)) as (n & _ & _ & _ & _ & I1). exists n. apply (lookup_in _ _ _ (i_num _ _ _ _ _ I)). exact I1.
Qed.
Lemma held_open ges w u : linv ges w -> holds (prog ges) u -> closings w u = 0%nat /\ forall i, ~ exported w i u.
Proof.
  intros V H. assert (L : (u < fresh w)%nat) by (apply (v_opened _ _ _ V), H).
  assert (P : forall i, closings w u = 0%nat /\ ~ exported w i u).
  { intros i. destruct (v_runs _ _ _ V i) as (e & R & Hi). destruct (place _ _ _ u R L) as [(_ & X & _)|[(X & _ & Y)|(_ & X & _)]]; [destruct (X (Hi u H))|auto|destruct (X (Hi u H))]. }
  split; [exact (proj1 (P 0%nat))|intros i; exact (proj2 (P i))].
Qed.
Lemma exported_open ges w i u : linv ges w -> exported w i u -> closings w u = 0%nat /\ ~ holds (prog ges) u /\ (u < fresh w)%nat.
Proof.
  intros V F. destruct (v_runs _ _ _ V i) as (e & R & Hi). pose proof (found_lt _ _ _ _ R F) as L. split; [|split; [|exact L]].
  - destruct (place _ _ _ u R L) as [(_ & _ & X)|[(_ & _ & X)|(X & _)]]; [contradiction|contradiction|exact X].
  - intros H. exact (proj2 (held_open _ _ _ V H) i F).
Qed.
Lemma at_most_once ges w u : linv ges w -> (u < fresh w)%nat -> closings w u = 0%nat \/ closings w u = 1%nat.
Proof. intros V L. destruct (v_runs _ _ _ V 0%nat) as (e & R & Hi). destruct (place _ _ _ u R L) as [(X & _)|[(X & _)|(X & _)]]; auto. Qed.

(** One step of LibsModel by the program. *)
Definition host_step (w : host) (i : nat) (s' : state) : host := after w i (Gate s' (policies w i)).
Lemma host_moves ges w i o s' r : linv ges w -> allowed (prog ges) (own (lib w i)) o -> step debug o (own (lib w i)) = (s', r) ->
  let w' := host_step w i s' in let ges' := ges ++ [(i, (Host o, Did r))] in
  linv ges' w' /\ r <> Aborted /\ (fresh w <= fresh w')%nat /\
  (forall n u, lookup n (table w) = Some u -> holds (prog ges') u -> lookup n (table w') = Some u) /\
  (forall u, closings w u = 1%nat -> closings w' u = 1%nat) /\
  (forall j p tail u, j <> i -> (finds w' j p tail u <-> finds w j p tail u)) /\
  (LibsProof.plain (o, r) -> forall j p tail u, finds w' j p tail u <-> finds w j p tail u).
Proof.
  intros V Al E w' ges'. destruct (linv_host _ _ _ _ _ _ _ V Al E) as [V' Ot]. fold ges' in V'. fold (host_step w i s') in V', Ot. fold w' in V', Ot.
  destruct (v_runs _ _ _ V i) as (ei & Ri & Hi).
  assert (Ali : allowed ei (own (lib w i)) o).
  { destruct o as [n|p file who|u|]; cbn [allowed] in *; auto. destruct Al as (A1 & A2 & A3). split; [exact A1|]. split; [exact A2|]. intros u Hu. apply Hi, A3, Hu. }
  pose proof (runs_snoc _ _ _ _ _ _ Ri Ali E) as Ri'.
  destruct (step_incl _ _ _ _ E) as [Sub (more & Mo)].
  assert (Fr : (fresh w <= fresh w')%nat) by exact (next_mono _ _ _ _ _ Ri Ri').
  destruct (table_nodup _ _ V) as (N1 & N2 & N3). destruct (table_nodup _ _ V') as (N1' & N2' & N3').
  split; [exact V'|]. split.
  { intros ->. apply (proj2 (exported_closes_succeed _ _ _ Ri') o). apply in_snoc. auto. }
  split; [exact Fr|]. split.
  { intros n u L H. destruct (held_number _ _ _ V' H) as [m L']. apply (lookup_in _ _ _ N1') in L'. apply (lookup_in _ _ _ N1) in L.
    apply (lookup_in _ _ _ N1'). destruct (Sub m u L') as [X|X].
    - rewrite (nodup_snd (table w) n u m N2 L X). exact L'.
    - exfalso. apply N3 in L. change (next (own (lib w i))) with (fresh w) in X. lia. }
  split.
  { intros u C. assert (Le : (closings w u <= closings w' u)%nat).
    { unfold closings, times_closed. change (closes (own (lib w' 0))) with (closes s'). rewrite Mo. change (closes (own (lib w i))) with (closes (own (lib w 0))).
      rewrite filter_app, app_length. lia. }
    assert (Lu : (u < fresh w)%nat).
    { destruct (runs_Inv _ _ _ Ri) as (kt & km & kc & I). change (times_closed (own (lib w i)) u = 1%nat) in C.
      rewrite (times_closed_gone _ _ u (i_closed _ _ _ _ _ I)) in C.
      assert (X : In u (map snd kc)) by (apply (count_occ_In Nat.eq_dec); lia).
      assert (Y : In u (seq 0 (next (own (lib w i))))) by (rewrite <- (i_ids _ _ _ _ _ I); apply in_or_app; auto). apply in_seq in Y. exact (proj2 Y). }
    destruct (at_most_once _ _ u V'); [lia| |]; lia. }
  split; [exact Ot|]. intros Pl j p tail u. destruct (Nat.eq_dec j i) as [->|D]; [|apply Ot; exact D].
  pose proof (found_step _ _ _ _ _ _ p tail u Ri Ali E Pl) as X. unfold finds, w'. change (trees (host_step w i s') i) with (upd (trees w) i (tree s') i).
  rewrite upd_same. exact X.
Qed.

(** Opening. *)
Lemma allowed_open ges w i n : 0 <= n -> lookup n (table w) = None -> allowed (prog ges) (own (lib w i)) (Open n).
Proof. split; auto. Qed.
(** Closing. *)
Lemma step_close ges w i n u : linv ges w -> holds (prog ges) u -> lookup n (table w) = Some u ->
  step debug (Close u) (own (lib w i)) = (shut n u (own (lib w i)), Done).
Proof.
  intros V H L. destruct (table_nodup _ _ V) as (N1 & N2 & N3). pose proof L as L'. apply (lookup_in _ _ _ N1) in L'.
  cbn [step]. rewrite table_of. rewrite (number_in u (table w) n N2 L'). cbn [destroy]. destruct (N3 _ _ L') as [P _]. apply Z.ltb_ge in P. rewrite P, L. reflexivity.
Qed.
Lemma closed_once ges w i n u : linv ges w -> holds (prog ges) u -> closings (host_step w i (shut n u (own (lib w i)))) u = 1%nat.
Proof.
  intros V H. destruct (held_open _ _ _ V H) as [C _]. unfold closings, times_closed in *. cbn [host_step lib after own closes shut closed].
  change (closes (own (lib w 0))) with (closed w) in C. rewrite filter_app, app_length, C. cbn. rewrite Nat.eqb_refl. reflexivity.
Qed.

(** Several descriptors that arrive. *)
Definition with_more (w : host) (ns : list Z) : host :=
  Libs (trees w) (policies w) (table w ++ pairs ns (fresh w)) (fresh w + length ns) (closed w).
Fixpoint arrivals (i : nat) (ns : list Z) (u : nat) : history :=
  match ns with [] => [] | n :: r => (i, (Host (Open n), Did (Opened u))) :: arrivals i r (S u) end.
Lemma arrivals_in i ns : forall u e, In e (arrivals i ns u) -> exists n v, e = (i, (Host (Open n), Did (Opened v))) /\ (u <= v < u + length ns)%nat.
Proof.
  induction ns as [|n ns IH]; intros u e; cbn [arrivals length]; [intros []|]. intros [<-|I1]; [exists n, u; split; [reflexivity|lia]|].
  destruct (IH _ _ I1) as (m & v & -> & L). exists m, v. split; [reflexivity|lia].
Qed.
Lemma arrivals_moves i ns : forall ges w, linv ges w -> NoDup ns -> (forall n, In n ns -> 0 <= n /\ lookup n (table w) = None) ->
  linv (ges ++ arrivals i ns (fresh w)) (with_more w ns) /\
  (forall j p tail u, finds (with_more w ns) j p tail u <-> finds w j p tail u).
Proof.
  induction ns as [|n ns IH]; intros ges w V N A.
  - cbn [arrivals]. rewrite app_nil_r. split.
    + eapply linv_same; [exact V|]. intros j. unfold lib, with_more. cbn. rewrite app_nil_r, Nat.add_0_r. reflexivity.
    + intros j p tail u. unfold finds, with_more. cbn. rewrite app_nil_r. reflexivity.
  - inversion N as [|? ? N1 N2]; subst. destruct (A n (or_introl eq_refl)) as [P L].
    destruct (host_moves ges w i (Open n) _ _ V (allowed_open ges w i n P L) eq_refl) as (V1 & _ & _ & _ & _ & _ & F1).
    specialize (F1 (or_introl (ex_intro _ n eq_refl))).
    assert (S1 : forall j, lib (with_more w [n]) j = lib (host_step w i (St (trees w i) (table w ++ [(n, fresh w)]) (S (fresh w)) (closed w))) j).
    { intros j. unfold lib, with_more, host_step, after. cbn. rewrite Nat.add_1_r. unfold upd. destruct (Nat.eqb_spec j i) as [->|]; reflexivity. }
    pose proof (linv_same _ _ _ V1 S1) as V2.
    destruct (IH _ _ V2 N2) as [V3 F3].
    { intros m I1. destruct (A m (or_intror I1)) as [Pm Lm]. split; [exact Pm|]. unfold with_more. cbn [table pairs]. rewrite lookup_app, Lm, lookup_one.
      destruct (Z.eqb_spec n m); [subst; contradiction|reflexivity]. }
    assert (S3 : forall j, lib (with_more w (n :: ns)) j = lib (with_more (with_more w [n]) ns) j).
    { intros j. unfold lib, with_more. cbn [trees policies table fresh closed pairs length]. rewrite <- app_assoc. cbn [app]. rewrite !Nat.add_1_r, Nat.add_succ_r. reflexivity. }
    split.
    + cbn [arrivals]. cbn [with_more fresh length] in V3. rewrite Nat.add_1_r in V3. rewrite <- app_assoc in V3. eapply linv_same; [exact V3|exact S3].
    + intros j p tail u. transitivity (finds (with_more (with_more w [n]) ns) j p tail u).
      { unfold finds, with_more. cbn [trees policies table fresh closed pairs length]. rewrite <- app_assoc. cbn [app]. rewrite !Nat.add_1_r. reflexivity. }
      rewrite F3. transitivity (finds (host_step w i (St (trees w i) (table w ++ [(n, fresh w)]) (S (fresh w)) (closed w))) j p tail u); [|apply F1].
      unfold finds, with_more, host_step, after. cbn. unfold upd. destruct (Nat.eqb_spec j i) as [->|]; reflexivity.
Qed.
End TABLE.

(** ** What was seen so far *)
Lemma uses_app a b : uses (a ++ b) = uses a ++ uses b.
Proof. apply flat_map_app. Qed.
Lemma sets_app i a b : sets i (a ++ b) = sets i a ++ sets i b.
Proof. apply flat_map_app. Qed.
Lemma brought_app i a b : brought i (a ++ b) = brought i a ++ brought i b.
Proof. apply flat_map_app. Qed.
Lemma latest_snoc i es e : latest i (es ++ [e]) = track i (latest i es) e.
Proof. unfold latest. rewrite fold_left_app. reflexivity. Qed.
Lemma track_other i j c x : j <> i -> track j c (i, x) = c.
Proof. intros D. unfold track. cbn [fst]. destruct (Nat.eqb_spec i j); [congruence|reflexivity]. Qed.
Lemma brought_other i j x : j <> i -> brought j [(i, x)] = [].
Proof. intros D. unfold brought. cbn. destruct (Nat.eqb_spec i j); [congruence|reflexivity]. Qed.
Lemma sets_other i j x : j <> i -> sets j [(i, x)] = [].
Proof. intros D. unfold sets. cbn. destruct x as [[| | |] ?]; try reflexivity. destruct (Nat.eqb_spec i j); [congruence|reflexivity]. Qed.

Definition answered (es : list seen) : list bool := flat_map (fun e => match e with Asked _ _ _ => [] | Replied _ _ => [true] | Killed => [false] end) es.
Definition tree_of (t : option FileTreeModel.dir) : FileTreeModel.dir := match t with Some t => t | None => [] end.

Section INV.
Variables (debug : bool) (shm size hdr : nat -> Z).
Hypothesis M : forall i, mapping_ok (shm i) (size i) (hdr i).
Local Notation heaps := (fun i => library_heap (shm i) (size i) (hdr i)).
Local Notation linv := (linv debug).
Local Notation prog es := (program (all es)).
Local Notation held := (nat -> list (Z * nat)).

Record reqinv (es : phistory) (w : par) (i : nat) (G O : list (Z * nat)) (q : request) (rq : crequest) (sent : option Z) (got : option nat) (evs : list seen) : Prop := {
  r_tidy : tidy (tree_of (trees (now w) i)) (sets i es) (cr_kind rq =? 3) sent (map fst G) (map fst O) (todo w i);
  r_got : forall n u, In (n, u) G -> got = Some u;
  r_open : forall n u, In (n, u) O -> In u (opened_in evs);
  r_none : sent = None -> got = None;
  r_gclosed : forall u, got = Some u -> In u (map snd G) \/ closings (now w) u = 1%nat;
  r_oclosed : forall u, In u (opened_in evs) -> In u (map snd O) \/ closings (now w) u = 1%nat;
  r_answer : answered evs ++ ends (todo w i) = [q_sends q];
  r_in : forall u, got = Some u -> In u (brought i es);
  r_apart : forall u, got = Some u -> ~ In u (opened_in evs) }.

Definition quiet (es : phistory) (w : par) (i : nat) (G O : list (Z * nat)) : Prop :=
  match latest i es with
  | None => todo w i = [] /\ G = [] /\ O = []
  | Some (q, got, evs) =>
      match q_msg q with
      | None => todo w i = [] /\ got = None /\ evs = [] /\ G = [] /\ O = []
      | Some (rq, sent) => reqinv es w i G O q rq sent got evs
      end
  end.

Record pinv (es : phistory) (w : par) (ges : history) (PG PO : held) : Prop := {
  p_ghost : linv ges (now w);
  p_sets : forall i, settings (only i ges) = sets i es;
  p_holds : forall u, holds (uses es) u -> holds (prog ges) u;
  p_back : forall u, opened (uses es) u -> holds (prog ges) u -> holds (uses es) u;
  p_sub : forall x, In x (uses es) -> In x (prog ges);
  p_pair : forall i n u, In (n, u) (PG i ++ PO i) -> lookup n (table (now w)) = Some u /\ holds (prog ges) u /\ In u (brought i es);
  p_brought : forall i u, In u (brought i es) -> (u < fresh (now w))%nat /\ ~ opened (uses es) u /\ (closings (now w) u = 1%nat \/ holds (prog ges) u);
  p_apart : forall i j u, In u (brought i es) -> In u (brought j es) -> i = j;
  p_busy : forall i, todo w i <> [] -> trees (now w) i <> None;
  p_quiet : forall i, quiet es w i (PG i) (PO i) }.

Lemma pinv_0 : pinv [] new_par [] (fun _ => []) (fun _ => []).
Proof.
  constructor; try reflexivity.
  - exact (linv_0 debug).
  - intros u ((n & []) & _).
  - intros u (n & []).
  - intros x [].
  - intros i n u [].
  - intros i u [].
  - intros i j u [].
  - intros i X. destruct (X eq_refl).
  - intros i. repeat split.
Qed.

(** One event, seen by everyone else. *)
Record moved (es : phistory) (w : par) (ges : history) (i : nat) (w' : par) (ges' : history) (goes : nat -> Prop) : Prop := {
  m_ghost : linv ges' (now w');
  m_keep : forall u, holds (prog ges) u -> ~ goes u -> holds (prog ges') u;
  m_num : forall n u, lookup n (table (now w)) = Some u -> holds (prog ges') u -> lookup n (table (now w')) = Some u;
  m_closed : forall u, closings (now w) u = 1%nat -> closings (now w') u = 1%nat;
  m_fresh : (fresh (now w) <= fresh (now w'))%nat;
  m_goes : forall u, goes u -> opened (uses es) u \/ In u (brought i es) /\ closings (now w') u = 1%nat;
  m_other : forall j, j <> i -> todo w' j = todo w j /\ trees (now w') j = trees (now w) j }.

Lemma frame es w ges PG PO i x w' ges' goes PG' PO' :
  let es' := es ++ [(i, x)] in
  pinv es w ges PG PO -> moved es w ges i w' ges' goes ->
  (forall j, j <> i -> PG' j = PG j /\ PO' j = PO j) ->
  (forall j, settings (only j ges') = sets j es') ->
  (forall u, holds (uses es') u -> holds (prog ges') u) ->
  (forall u, opened (uses es') u -> holds (prog ges') u -> holds (uses es') u) ->
  (forall x, In x (uses es') -> In x (prog ges')) ->
  (forall n u, In (n, u) (PG' i ++ PO' i) -> In (n, u) (PG i ++ PO i) /\ ~ goes u \/ lookup n (table (now w')) = Some u /\ holds (prog ges') u /\ In u (brought i es')) ->
  (forall u, In u (brought i es') -> In u (brought i es) \/ (fresh (now w) <= u < fresh (now w'))%nat /\ ~ opened (uses es') u /\ (closings (now w') u = 1%nat \/ holds (prog ges') u)) ->
  (forall u, opened (uses es') u -> opened (uses es) u \/ (fresh (now w) <= u)%nat) ->
  (todo w' i <> [] -> trees (now w') i <> None) ->
  quiet es' w' i (PG' i) (PO' i) ->
  pinv es' w' ges' PG' PO'.
Proof.
  intros es' V Mv Ot S H B So Pr Br Us Bu Qu.
  assert (Old : forall j u, In u (brought j es) -> (u < fresh (now w'))%nat /\ ~ opened (uses es') u /\ (closings (now w') u = 1%nat \/ holds (prog ges') u)).
  { intros j u I1. destruct (p_brought _ _ _ _ _ V j u I1) as (L & N & C). pose proof (m_fresh _ _ _ _ _ _ _ Mv). split; [lia|]. split.
    - intros X. destruct (Us u X) as [Y|Y]; [contradiction|lia].
    - destruct C as [C|C]; [left; apply (m_closed _ _ _ _ _ _ _ Mv), C|].
      destruct (at_most_once debug ges' (now w') u (m_ghost _ _ _ _ _ _ _ Mv)) as [Z|Z]; [lia| |left; exact Z].
      right. apply (m_keep _ _ _ _ _ _ _ Mv u C). intros Y. destruct (m_goes _ _ _ _ _ _ _ Mv u Y) as [Y1|[_ Y1]]; [contradiction|lia]. }
  assert (BrJ : forall j, j <> i -> brought j es' = brought j es).
  { intros j D. unfold es'. rewrite brought_app, brought_other, app_nil_r by exact D. reflexivity. }
  constructor; auto.
  - exact (m_ghost _ _ _ _ _ _ _ Mv).
  - intros j n u I1.
    assert (Keep : In (n, u) (PG j ++ PO j) -> ~ goes u -> lookup n (table (now w')) = Some u /\ holds (prog ges') u /\ In u (brought j es')).
    { intros I2 Ng. destruct (p_pair _ _ _ _ _ V j n u I2) as (L & Hu & Bj). pose proof (m_keep _ _ _ _ _ _ _ Mv u Hu Ng) as H'. split; [apply (m_num _ _ _ _ _ _ _ Mv); assumption|].
      split; [exact H'|]. unfold es'. rewrite brought_app. apply in_or_app. auto. }
    destruct (Nat.eq_dec j i) as [->|D].
    + destruct (Pr n u I1) as [[I2 Ng]|X]; [apply Keep; assumption|exact X].
    + destruct (Ot j D) as [E1 E2]. rewrite E1, E2 in I1. apply Keep; [exact I1|]. intros Y. destruct (p_pair _ _ _ _ _ V j n u I1) as (_ & _ & Bj).
      destruct (m_goes _ _ _ _ _ _ _ Mv u Y) as [Y1|[Y1 _]]; [exact (proj1 (proj2 (p_brought _ _ _ _ _ V j u Bj)) Y1)|].
      apply D. exact (p_apart _ _ _ _ _ V j i u Bj Y1).
  - intros j u I1. destruct (Nat.eq_dec j i) as [->|D]; [|rewrite BrJ in I1 by exact D; apply (Old j), I1].
    destruct (Br u I1) as [X|(L & N & C)]; [apply (Old i), X|]. split; [lia|]. auto.
  - assert (Key : forall j u, j <> i -> In u (brought i es') -> In u (brought j es') -> False).
    { intros j u D I1 I2. rewrite BrJ in I2 by exact D. destruct (Br u I1) as [X|(L & _)].
      - apply D. exact (p_apart _ _ _ _ _ V j i u I2 X).
      - destruct (p_brought _ _ _ _ _ V j u I2) as (L' & _). lia. }
    intros j k u I1 I2. destruct (Nat.eq_dec j i) as [->|Dj]; destruct (Nat.eq_dec k i) as [->|Dk]; auto.
    + exfalso. exact (Key k u Dk I1 I2).
    + exfalso. exact (Key j u Dj I2 I1).
    + rewrite BrJ in I1, I2 by assumption. exact (p_apart _ _ _ _ _ V j k u I1 I2).
  - intros j Y. destruct (Nat.eq_dec j i) as [->|D]; [apply Bu, Y|]. destruct (m_other _ _ _ _ _ _ _ Mv j D) as [E1 E2]. rewrite E1 in Y. rewrite E2. exact (p_busy _ _ _ _ _ V j Y).
  - intros j. destruct (Nat.eq_dec j i) as [->|D]; [exact Qu|]. destruct (m_other _ _ _ _ _ _ _ Mv j D) as [E1 E2]. destruct (Ot j D) as [E3 E4]. rewrite E3, E4.
    pose proof (p_quiet _ _ _ _ _ V j) as Y. unfold quiet in *. unfold es'. rewrite latest_snoc, track_other by exact D. rewrite E1.
    destruct (latest j es) as [[[q got] evs]|]; [|exact Y]. destruct (q_msg q) as [[rq sent]|]; [|exact Y].
    destruct Y as [T1 T2 T3 T4 T5 T6 T7 T8 T9]. constructor; rewrite ?E1, ?E2; auto.
    + rewrite sets_app, sets_other, app_nil_r by exact D. exact T1.
    + intros u X. destruct (T5 u X) as [X1|X1]; [left; exact X1|right; apply (m_closed _ _ _ _ _ _ _ Mv), X1].
    + intros u X. destruct (T6 u X) as [X1|X1]; [left; exact X1|right; apply (m_closed _ _ _ _ _ _ _ Mv), X1].
    + rewrite brought_app, brought_other, app_nil_r by exact D. exact T8.
Qed.

(** A library that does nothing keeps its request as it is. *)
Lemma quiet_same es w i x w' G O :
  quiet es w i G O -> (forall y, x <> (PNext, PSeen y)) -> (forall q g, x <> (PBegin q, PBegun g)) ->
  todo w' i = todo w i -> (todo w i = [] \/ trees (now w') i = trees (now w) i /\ forall no p r, x <> (PSet no p, r)) ->
  (forall u, closings (now w) u = 1%nat -> closings (now w') u = 1%nat) ->
  quiet (es ++ [(i, x)]) w' i G O.
Proof.
  intros Y N1 N2 E Tr Cl. unfold quiet in *. rewrite latest_snoc.
  assert (L : track i (latest i es) (i, x) = latest i es).
  { unfold track. cbn [fst snd]. rewrite Nat.eqb_refl. destruct x as [[| | |] [| | | |]]; try reflexivity; [destruct (N2 q got eq_refl)|destruct (N1 e eq_refl)]. }
  rewrite L, E. destruct (latest i es) as [[[q got] evs]|]; [|exact Y]. destruct (q_msg q) as [[rq sent]|]; [|exact Y].
  destruct Y as [T1 T2 T3 T4 T5 T6 T7 T8 T9]. constructor; rewrite ?E; auto.
  - destruct Tr as [Tr|[Tr Ns]]; [rewrite Tr in *; eapply tidy_nil; exact T1|]. rewrite Tr, sets_app.
    assert (Z : sets i [(i, x)] = []) by (unfold sets; cbn; destruct x as [[| no p | |] r]; try reflexivity; destruct (Ns no p r eq_refl)).
    rewrite Z, app_nil_r. exact T1.
  - intros u X. destruct (T5 u X) as [X1|X1]; auto.
  - intros u X. destruct (T6 u X) as [X1|X1]; auto.
  - intros u X. rewrite brought_app. apply in_or_app. auto.
Qed.

Lemma only_settings_host i j ges o r : settings (only j (ges ++ [(i, (Host o, Did r))])) = settings (only j ges).
Proof.
  destruct (Nat.eq_dec j i) as [->|D]; [rewrite only_same, settings_app; cbn; apply app_nil_r|]. rewrite only_other by auto. reflexivity.
Qed.
Lemma holds_lt ges w u : linv ges w -> holds (prog ges) u -> (u < fresh w)%nat.
Proof. intros V H. apply (v_opened _ _ _ V), H. Qed.

Lemma sub_opened es w ges PG PO u : pinv es w ges PG PO -> opened (uses es) u -> opened (prog ges) u /\ (u < fresh (now w))%nat.
Proof.
  intros V (n & X). assert (O : opened (prog ges) u) by (exists n; apply (p_sub _ _ _ _ _ V), X). split; [exact O|]. exact (v_opened _ _ _ (p_ghost _ _ _ _ _ V) u O).
Qed.
Lemma holds_new (l : list (op * OwnModel.result)) n u : (forall r, ~ In (Close u, r) l) -> (forall p f r, ~ In (Add p f (Some u), r) l) -> holds (l ++ [(Open n, Opened u)]) u.
Proof.
  intros A B. apply holds_split. split; [exists n; apply in_snoc; auto|]. split; split; auto.
  - intros [X|[]]. discriminate.
  - intros p f [X|[]]. discriminate.
Qed.

(** The program's own use. *)
Lemma pinv_host es w ges PG PO i o s' r : pinv es w ges PG PO -> pallowed es w i (PHost o) -> step debug o (own (lib (now w) i)) = (s', r) ->
  r <> Aborted /\ (forall j p tail u, j <> i -> (finds (host_step (now w) i s') j p tail u <-> finds (now w) j p tail u)) /\
  exists ges', pinv (es ++ [(i, (PHost o, PDid r))]) (Par (host_step (now w) i s') (todo w)) ges' PG PO.
Proof.
  intros V [Al Id] E. set (ges' := ges ++ [(i, (Host o, Did r))]).
  assert (Al' : allowed (prog ges) (own (lib (now w) i)) o).
  { destruct o as [n|p file who|u|]; cbn [allowed] in *; auto.
    - destruct Al as (A1 & A2 & A3). split; [exact A1|]. split; [exact A2|]. intros u Hu. apply (p_holds _ _ _ _ _ V), A3, Hu.
    - apply (p_holds _ _ _ _ _ V), Al. }
  pose proof (p_ghost _ _ _ _ _ V) as L.
  destruct (host_moves debug ges (now w) i o s' r L Al' E) as (V' & Na & Fr & Num & Clo & Ot & _). fold ges' in V', Num.
  split; [exact Na|]. split; [exact Ot|]. exists ges'.
  set (w' := Par (host_step (now w) i s') (todo w)).
  assert (Pg : prog ges' = prog ges ++ [(o, r)]) by apply prog_host.
  assert (Us : uses (es ++ [(i, (PHost o, PDid r))]) = uses es ++ [(o, r)]) by (rewrite uses_app; reflexivity).
  assert (Keep : forall u, holds (prog ges) u -> ~ opened (uses es) u -> holds (prog ges') u).
  { intros u H N. rewrite Pg. apply holds_keep; [exact H| |].
    - intros [X|[]]. injection X as -> ->. apply N, Al.
    - intros p f [X|[]]. injection X as -> ->. destruct Al as (_ & _ & A3). apply N, (A3 u eq_refl). }
  assert (New : forall n u, (o, r) = (Open n, Opened u) -> u = fresh (now w)).
  { intros n u X. destruct (open_step _ _ _ _ _ _ _ E X) as [X1 _]. exact X1. }
  assert (Tail : forall es0 es1 u, holds (es0 ++ [(o, r)]) u -> holds es1 u -> holds (es1 ++ [(o, r)]) u).
  { intros es0 es1 u H H1. apply holds_split in H as (_ & _ & X1 & X2). apply holds_keep; assumption. }
  assert (Br : forall j, brought j (es ++ [(i, (PHost o, PDid r))]) = brought j es).
  { intros j. rewrite brought_app. unfold brought at 2. cbn. destruct (i =? j)%nat; apply app_nil_r. }
  eapply (frame es w ges PG PO i (PHost o, PDid r) w' ges' (opened (uses es)) PG PO V).
  - constructor; auto. intros j D. split; [reflexivity|]. cbn. apply upd_other, D.
  - auto.
  - intros j. unfold ges'. rewrite only_settings_host, (p_sets _ _ _ _ _ V), sets_app. cbn. symmetry. apply app_nil_r.
  - rewrite Us, Pg. intros u H. destruct H as ((n & X) & H2). apply in_snoc in X as [X|X].
    + apply (Tail (uses es)); [split; [exists n; apply in_snoc; auto|exact H2]|]. apply (p_holds _ _ _ _ _ V).
      apply (holds_back _ [(o, r)]); [exists n; exact X|]. split; [exists n; apply in_snoc; auto|exact H2].
    + rewrite X. pose proof (New n u X) as ->. apply holds_new.
      * intros r0 Y. apply (v_closing _ _ _ L) in Y. lia.
      * intros p f r0 Y. apply (v_adding _ _ _ L) in Y. lia.
  - rewrite Us, Pg. intros u (n & X) H. apply in_snoc in X as [X|X].
    + assert (O : opened (uses es) u) by (exists n; exact X). apply (Tail (prog ges)); [exact H|]. apply (p_back _ _ _ _ _ V); [exact O|].
      apply (holds_back _ [(o, r)]); [exact (proj1 (sub_opened _ _ _ _ _ u V O))|exact H].
    + rewrite X. pose proof (New n u X) as ->. apply holds_new.
      * intros r0 Y. apply (p_sub _ _ _ _ _ V), (v_closing _ _ _ L) in Y. lia.
      * intros p f r0 Y. apply (p_sub _ _ _ _ _ V), (v_adding _ _ _ L) in Y. lia.
  - rewrite Us, Pg. intros x X. apply in_snoc in X as [X|X]; apply in_snoc; [left; apply (p_sub _ _ _ _ _ V), X|right; exact X].
  - intros n u I1. left. split; [exact I1|]. destruct (p_pair _ _ _ _ _ V i n u I1) as (_ & _ & B). exact (proj1 (proj2 (p_brought _ _ _ _ _ V i u B))).
  - rewrite Br. auto.
  - rewrite Us. intros u (n & X). apply in_snoc in X as [X|X]; [left; exists n; exact X|]. right. rewrite (New n u X). lia.
  - cbn [w' todo now]. intros Y. pose proof (p_busy _ _ _ _ _ V i Y) as B. unfold host_step, after. cbn [trees own]. rewrite upd_same.
    destruct o as [n|p f who|u|]; try (rewrite Id in Y; congruence).
    + cbn [step] in E. injection E as <- _. exact B.
    + cbn [step] in E. destruct (destroy _ _ _ _) as [[k c]|]; injection E as <- _; exact B.
  - apply (quiet_same es w i _ w' _ _ (p_quiet _ _ _ _ _ V i)); try (intros; discriminate); auto.
    destruct o as [n|p f who|u|]; auto; right; (split; [|intros; discriminate]); cbn [w' now host_step after trees own]; rewrite upd_same.
    + cbn [step] in E. injection E as <- _. reflexivity.
    + cbn [step] in E. destruct (destroy _ _ _ _) as [[k c]|]; injection E as <- _; reflexivity.
Qed.

(** A network setting. *)
Lemma pinv_set es w ges PG PO i no p : pinv es w ges PG PO -> todo w i = [] ->
  exists ges', pinv (es ++ [(i, (PSet no p, PNoted))]) (Par (after (now w) i (Gate (own (lib (now w) i)) (set_policy (net (lib (now w) i)) no p))) (todo w)) ges' PG PO.
Proof.
  intros V Id. set (w' := Par _ _). set (ges' := ges ++ [(i, (Setting no p, Noted))]). exists ges'.
  pose proof (linv_set debug ges (now w) i no p (p_ghost _ _ _ _ _ V)) as V'.
  assert (Pg : prog ges' = prog ges) by apply prog_set.
  assert (Us : uses (es ++ [(i, (PSet no p, PNoted))]) = uses es) by (rewrite uses_app; apply app_nil_r).
  assert (Br : forall j, brought j (es ++ [(i, (PSet no p, PNoted))]) = brought j es).
  { intros j. rewrite brought_app. unfold brought at 2. cbn. destruct (i =? j)%nat; apply app_nil_r. }
  eapply (frame es w ges PG PO i (PSet no p, PNoted) w' ges' (fun _ => False) PG PO V); rewrite ?Us, ?Pg, ?Br; auto.
  - constructor; rewrite ?Pg; auto; [tauto|]. intros j D. split; [reflexivity|]. cbn. apply upd_other, D.
  - intros j. unfold ges'. rewrite sets_app, <- (p_sets _ _ _ _ _ V). destruct (Nat.eq_dec j i) as [->|D].
    + rewrite only_same, settings_app. unfold sets. cbn. rewrite Nat.eqb_refl. reflexivity.
    + rewrite only_other by auto. rewrite sets_other by exact D. symmetry. apply app_nil_r.
  - exact (p_holds _ _ _ _ _ V).
  - exact (p_back _ _ _ _ _ V).
  - exact (p_sub _ _ _ _ _ V).
  - apply (quiet_same es w i _ w' _ _ (p_quiet _ _ _ _ _ V i)); try (intros; discriminate); auto.
Qed.

(** A request is received. *)
Lemma prog_arrivals i ns : forall u, prog (arrivals i ns u) = map (fun x => (Open (fst x), Opened (snd x))) (pairs ns u).
Proof. induction ns as [|n ns IH]; intros u; [reflexivity|]. cbn [arrivals pairs map fst snd]. rewrite <- IH. reflexivity. Qed.
Lemma prog_more ges l : prog (ges ++ l) = prog ges ++ prog l.
Proof. rewrite all_app. apply program_app. Qed.
Lemma pairs_bound ns : forall u n v, In (n, v) (pairs ns u) -> (u <= v < u + length ns)%nat.
Proof.
  induction ns as [|m ns IH]; intros u n v; cbn [pairs length]; [intros []|]. intros [E|I1]; [injection E as <- <-; lia|]. apply IH in I1. lia.
Qed.
Lemma settings_arrivals i ns j : forall u, settings (only j (arrivals i ns u)) = [].
Proof.
  induction ns as [|n ns IH]; intros u; [reflexivity|]. cbn [arrivals]. unfold only. cbn [filter fst]. destruct (Nat.eqb i j); cbn [map snd settings flat_map app]; apply IH.
Qed.
Lemma only_app j a b : only j (a ++ b) = only j a ++ only j b.
Proof. unfold only. rewrite filter_app. apply map_app. Qed.
Lemma arrivals_keep ges i ns u0 u : holds (prog ges) u -> holds (prog (ges ++ arrivals i ns u0)) u.
Proof.
  intros H. rewrite prog_more, prog_arrivals. apply holds_keep; [exact H| |].
  - intros X. apply in_map_iff in X as (x & X & _). discriminate.
  - intros p f X. apply in_map_iff in X as (x & X & _). discriminate.
Qed.
Lemma arrivals_held ges w i ns n u : linv ges w -> In (n, u) (pairs ns (fresh w)) -> holds (prog (ges ++ arrivals i ns (fresh w))) u.
Proof.
  intros V I1. pose proof (pairs_bound _ _ _ _ I1) as L. rewrite prog_more, prog_arrivals. apply holds_split. split.
  - exists n. apply in_or_app. right. apply in_map_iff. exists (n, u). auto.
  - split; split.
    + intros X. apply (v_closing _ _ _ V) in X. lia.
    + intros p f X. apply (v_adding _ _ _ V) in X. lia.
    + intros X. apply in_map_iff in X as (x & X & _). discriminate.
    + intros p f X. apply in_map_iff in X as (x & X & _). discriminate.
Qed.
Lemma pairs_app a : forall b u, pairs (a ++ b) u = pairs a u ++ pairs b (u + length a).
Proof.
  induction a as [|n a IH]; intros b u; cbn [app pairs length]; [rewrite Nat.add_0_r; reflexivity|]. rewrite IH. cbn [app]. do 3 f_equal. lia.
Qed.
Definition sent_of (q : request) : option Z := match q_msg q with Some (_, s) => s | None => None end.
Lemma arriving_is q : arriving q = q_lost q ++ sent_nums (sent_of q).
Proof. unfold arriving, sent_of. destruct (q_msg q) as [[? [?|]]|]; reflexivity. Qed.
Lemma receive_is q s : receive q s = St (tree s) (kern s ++ pairs (arriving q) (next s)) (next s + length (arriving q)) (closes s).
Proof.
  unfold receive. rewrite lost_state, arriving_is, pairs_app, app_length. unfold sent_of.
  destruct (q_msg q) as [[rq [n|]]|]; cbn [sent_nums pairs length]; unfold arrive; cbn [tree kern next closes].
  - rewrite <- app_assoc. f_equal. lia.
  - rewrite app_nil_r. f_equal. lia.
  - rewrite app_nil_r. f_equal. lia.
Qed.

Lemma pinv_begin es w ges PG PO i q w' r : pinv es w ges PG PO -> pallowed es w i (PBegin q) -> pstep debug heaps i (PBegin q) w = (w', r) ->
  exists got ges' PG' PO', r = PBegun got /\ pinv (es ++ [(i, (PBegin q, PBegun got))]) w' ges' PG' PO' /\
    (forall j, policies (now w') j = policies (now w) j /\ trees (now w') j = trees (now w) j) /\
    (forall n u, lookup n (table (now w)) = Some u -> lookup n (table (now w')) = Some u) /\
    (forall j p tail u, finds (now w') j p tail u <-> finds (now w) j p tail u) /\
    (got = None <-> sent_of q = None).
Proof.
  intros V (Id & Tn & Wd & Nd & Ar) E. pose proof (p_ghost _ _ _ _ _ V) as L. cbn [pstep] in E.
  change (tree (own (lib (now w) i))) with (trees (now w) i) in E. destruct (trees (now w) i) as [t|] eqn:Et; [|congruence].
  rewrite (v_net _ _ _ L i), (p_sets _ _ _ _ _ V) in E.
  destruct (script_fine (shm i) (size i) (hdr i) t (sets i es) q (M i) Wd) as (l & Sc & Gs). rewrite Sc in E. cbv zeta in E. injection E as <- <-.
  set (s' := receive q (St (trees (now w) i) (table (now w)) (fresh (now w)) (closed (now w)))). set (w' := Par _ _).
  assert (Es' : s' = St (trees (now w) i) (table (now w) ++ pairs (arriving q) (fresh (now w))) (fresh (now w) + length (arriving q)) (closed (now w))) by apply receive_is.
  destruct (arrivals_moves debug i (arriving q) ges (now w) L Nd Ar) as [V' Fi].
  set (ges' := ges ++ arrivals i (arriving q) (fresh (now w))) in *.
  assert (Tr : forall j, policies (now w') j = policies (now w) j /\ trees (now w') j = trees (now w) j).
  { intros j. unfold w'. cbn [now after policies trees own net]. rewrite Es'. cbn [tree]. rewrite <- (p_sets _ _ _ _ _ V), <- (v_net _ _ _ L i). unfold upd. destruct (Nat.eqb_spec j i) as [->|]; split; reflexivity. }
  assert (Tb : table (now w') = table (now w) ++ pairs (arriving q) (fresh (now w))) by (unfold w'; cbn [now after table own]; rewrite Es'; reflexivity).
  assert (Fw : fresh (now w') = (fresh (now w) + length (arriving q))%nat) by (unfold w'; cbn [now after fresh own]; rewrite Es'; reflexivity).
  assert (Cw : closed (now w') = closed (now w)) by (unfold w'; cbn [now after closed own]; rewrite Es'; reflexivity).
  assert (Sm : forall j, lib (now w') j = lib (with_more (now w) (arriving q)) j).
  { intros j. destruct (Tr j) as [T1 T2]. unfold lib. rewrite T1, T2, Tb, Fw, Cw. reflexivity. }
  assert (Cl : forall u, closings (now w') u = closings (now w) u) by (intros u; unfold closings, times_closed, lib; cbn [own closes]; rewrite Cw; reflexivity).
  pose proof (linv_same debug _ _ _ V' Sm) as V1.
  destruct (table_nodup debug _ _ V1) as (N1' & _ & _).
  set (idn := (fresh (now w) + length (q_lost q))%nat).
  set (got := match q_msg q with Some (_, Some n) => lookup n (kern s') | _ => None end).
  set (G := match sent_of q with Some n => [(n, idn)] | None => [] end).
  assert (InG : forall n u, In (n, u) G -> In (n, u) (pairs (arriving q) (fresh (now w))) /\ sent_of q = Some n /\ u = idn).
  { intros n u I1. unfold G in I1. destruct (sent_of q) as [m|] eqn:Sq; [|destruct I1]. destruct I1 as [X|[]]. injection X as <- <-.
    split; [|auto]. rewrite arriving_is, Sq, pairs_app. apply in_or_app. right. left. reflexivity. }
  assert (Got : got = match sent_of q with Some _ => Some idn | None => None end).
  { unfold got, sent_of. destruct (q_msg q) as [[rq [n|]]|] eqn:Qm; try reflexivity.
    assert (I1 : In (n, idn) (pairs (arriving q) (fresh (now w)))) by (apply InG; unfold G, sent_of; rewrite Qm; left; reflexivity).
    change (kern s') with (table (now w')). apply (lookup_in _ _ _ N1'). rewrite Tb. apply in_or_app. auto. }
  exists got, ges', (upd PG i G), (upd PO i []). split; [reflexivity|].
  assert (Us : uses (es ++ [(i, (PBegin q, PBegun got))]) = uses es) by (rewrite uses_app; apply app_nil_r).
  assert (Bi : brought i (es ++ [(i, (PBegin q, PBegun got))]) = brought i es ++ match got with Some u => [u] | None => [] end).
  { rewrite brought_app. unfold brought at 2. cbn. rewrite Nat.eqb_refl. destruct got; rewrite ?app_nil_r; reflexivity. }
  split; [|split; [exact Tr|split; [|split; [|]]]].
  - eapply (frame es w ges PG PO i (PBegin q, PBegun got) w' ges' (fun _ => False) _ _ V); rewrite ?Us, ?upd_same.
    + constructor; auto.
      * intros u H _. apply arrivals_keep, H.
      * intros n u X _. rewrite Tb, lookup_app, X. reflexivity.
      * intros u C. rewrite Cl. exact C.
      * lia.
      * tauto.
      * intros j D. split; [unfold w'; cbn [todo]; apply upd_other, D|apply Tr].
    + intros j D. split; apply upd_other, D.
    + intros j. unfold ges'. rewrite only_app, settings_app, settings_arrivals, app_nil_r, sets_app, (p_sets _ _ _ _ _ V). cbn. symmetry. apply app_nil_r.
    + intros u H. apply arrivals_keep, (p_holds _ _ _ _ _ V), H.
    + intros u O H. apply (p_back _ _ _ _ _ V); [exact O|]. unfold ges' in H. rewrite prog_more in H. eapply holds_back; [|exact H]. exact (proj1 (sub_opened _ _ _ _ _ u V O)).
    + intros x X. unfold ges'. rewrite prog_more. apply in_or_app. left. apply (p_sub _ _ _ _ _ V), X.
    + intros n u I1. rewrite app_nil_r in I1. right. destruct (InG n u I1) as (I2 & Sq & ->). split; [|split].
      * apply (lookup_in _ _ _ N1'). rewrite Tb. apply in_or_app. auto.
      * unfold ges'. eapply arrivals_held; [exact L|exact I2].
      * rewrite Bi, Got, Sq. apply in_or_app. right. left. reflexivity.
    + rewrite Bi. intros u I1. apply in_app_or in I1 as [I1|I1]; [auto|]. right. rewrite Got in I1. destruct (sent_of q) as [n|] eqn:Sq; [|destruct I1]. destruct I1 as [<-|[]].
      assert (I2 : In (n, idn) (pairs (arriving q) (fresh (now w)))) by (apply InG; unfold G; left; reflexivity).
      pose proof (pairs_bound _ _ _ _ I2) as B. split; [lia|]. split; [intros X; apply (sub_opened _ _ _ _ _ _ V) in X as [_ X]; lia|].
      right. unfold ges'. eapply arrivals_held; [exact L|exact I2].
    + auto.
    + intros _. rewrite (proj2 (Tr i)). congruence.
    + unfold quiet. rewrite latest_snoc. unfold track. cbn [fst snd]. rewrite Nat.eqb_refl. unfold w'. cbn [todo]. rewrite upd_same.
      destruct (q_msg q) as [[rq sent]|] eqn:Qm.
      * assert (Sq : sent_of q = sent) by (unfold sent_of; rewrite Qm; reflexivity). destruct Gs as [Ti En].
        constructor; cbn [todo]; rewrite ?upd_same; rewrite ?(proj2 (Tr i)).
        -- fold w'. rewrite (proj2 (Tr i)), Et. rewrite sets_app. cbn [tree_of sets flat_map snd app]. rewrite app_nil_r. unfold G. rewrite Sq. destruct sent; exact Ti.
        -- intros n u I1. destruct (InG n u I1) as (_ & X & ->). rewrite Got, X. reflexivity.
        -- intros n u [].
        -- intros X. rewrite Got, Sq, X. reflexivity.
        -- intros u X. left. rewrite Got in X. unfold G. destruct (sent_of q); [|discriminate]. injection X as <-. left. reflexivity.
        -- intros u [].
        -- exact En.
        -- intros u X. rewrite Bi, X. apply in_or_app. right. left. reflexivity.
        -- intros u _ [].
      * subst l. assert (Sq : sent_of q = None) by (unfold sent_of; rewrite Qm; reflexivity). unfold G. rewrite Sq. repeat split.
  - intros n u X. rewrite Tb, lookup_app, X. reflexivity.
  - intros j p tail u. rewrite <- (Fi j p tail u). unfold finds. rewrite (proj2 (Tr j)), Tb. reflexivity.
  - rewrite Got. destruct (sent_of q); split; congruence.
Qed.
End INV.

(** ** One step of a request *)
Section NEXT.
Variables (debug : bool) (shm size hdr : nat -> Z).
Hypothesis M : forall i, mapping_ok (shm i) (size i) (hdr i).
Local Notation heaps := (fun i => library_heap (shm i) (size i) (hdr i)).
Local Notation linv := (linv debug).
Local Notation pinv := (pinv debug).
Local Notation prog es := (program (all es)).

Lemma answered_app a b : answered (a ++ b) = answered a ++ answered b.
Proof. apply flat_map_app. Qed.
Lemma opened_in_app a b : opened_in (a ++ b) = opened_in a ++ opened_in b.
Proof. apply flat_map_app. Qed.
Lemma host_step_same w i j : lib (host_step w i (own (lib w i))) j = lib w j.
Proof. unfold lib, host_step, after. cbn. unfold upd. destruct (Nat.eqb_spec j i) as [->|]; reflexivity. Qed.
Lemma next_uses es i e : uses (es ++ [(i, (PNext, PSeen e))]) = uses es.
Proof. rewrite uses_app. apply app_nil_r. Qed.
Lemma next_sets j es i e : sets j (es ++ [(i, (PNext, PSeen e))]) = sets j es.
Proof. rewrite sets_app. apply app_nil_r. Qed.
Lemma next_brought es i e : brought i (es ++ [(i, (PNext, PSeen e))]) = brought i es ++ opened_in [e].
Proof. rewrite brought_app. unfold brought at 2. cbn. rewrite Nat.eqb_refl. destruct e as [o on [u|]|? ?|]; reflexivity. Qed.
Lemma next_latest es i e q got evs : latest i es = Some (q, got, evs) -> latest i (es ++ [(i, (PNext, PSeen e))]) = Some (q, got, evs ++ [e]).
Proof. intros L. rewrite latest_snoc, L. unfold track. cbn [fst snd]. rewrite Nat.eqb_refl. reflexivity. Qed.

Section ONE.
Variables (es : phistory) (w : par) (ges : history) (PG PO : nat -> list (Z * nat)) (i : nat) (m : micro) (l : list micro)
  (q : request) (rq : crequest) (sent : option Z) (got : option nat) (evs : list seen).
Hypothesis V : pinv es w ges PG PO.
Hypothesis Td : todo w i = m :: l.
Hypothesis La : latest i es = Some (q, got, evs).
Hypothesis Qm : q_msg q = Some (rq, sent).
Local Notation s := (own (lib (now w) i)).
Local Notation T := (tree_of (trees (now w) i)).

Lemma cur : reqinv es w i (PG i) (PO i) q rq sent got evs.
Proof. pose proof (p_quiet _ _ _ _ _ _ V i) as X. unfold quiet in X. rewrite La, Qm in X. exact X. Qed.

Definition after_next (s' : state) : par := Par (host_step (now w) i s') (upd (todo w) i l).
Local Notation tidy := (tidy T (sets i es) (cr_kind rq =? 3) sent).

(** What [frame] asks for, when nothing of the program's is touched. *)
Lemma next_frame e s' ges' goes G O :
  moved debug es w ges i (after_next s') ges' goes ->
  tree s' = trees (now w) i ->
  (forall j, settings (only j ges') = settings (only j ges)) ->
  (exists more, prog ges' = prog ges ++ more) ->
  (forall u, goes u -> ~ opened (uses es) u) ->
  (forall n u, In (n, u) (G ++ O) -> In (n, u) (PG i ++ PO i) /\ ~ goes u \/
     lookup n (kern s') = Some u /\ holds (prog ges') u /\ In u (opened_in [e])) ->
  (forall u, In u (opened_in [e]) -> (fresh (now w) <= u < next s')%nat /\ holds (prog ges') u) ->
  incl G (PG i) -> (forall n u, In (n, u) O -> In (n, u) (PO i) \/ In u (opened_in [e])) ->
  (forall u, In u (map snd (PG i)) -> In u (map snd G) \/ closings (now (after_next s')) u = 1%nat) ->
  (forall u, In u (map snd (PO i)) \/ In u (opened_in [e]) -> In u (map snd O) \/ closings (now (after_next s')) u = 1%nat) ->
  tidy (map fst G) (map fst O) l ->
  answered [e] ++ ends l = ends (m :: l) ->
  pinv (es ++ [(i, (PNext, PSeen e))]) (after_next s') ges' (upd PG i G) (upd PO i O).
Proof.
  intros Mv Ts Se (more & Pm) Go Pr Op IG IO CG CO Ti An. destruct cur as [T1 T2 T3 T4 T5 T6 T7 T8 T9].
  assert (Tr : trees (now (after_next s')) i = trees (now w) i) by (cbn [after_next now host_step after trees own]; rewrite upd_same; exact Ts).
  eapply (frame debug es w ges PG PO i (PNext, PSeen e) _ ges' goes _ _ V Mv); rewrite ?next_uses, ?next_brought, ?upd_same.
  - intros j D. split; apply upd_other, D.
  - intros j. rewrite Se, next_sets. exact (p_sets _ _ _ _ _ _ V j).
  - intros u H. apply (m_keep _ _ _ _ _ _ _ _ Mv); [apply (p_holds _ _ _ _ _ _ V), H|]. intros X. exact (Go u X (proj1 H)).
  - intros u O1 H. apply (p_back _ _ _ _ _ _ V); [exact O1|]. rewrite Pm in H. eapply holds_back; [|exact H]. exact (proj1 (sub_opened _ _ _ _ _ _ u V O1)).
  - intros x X. rewrite Pm. apply in_or_app. left. apply (p_sub _ _ _ _ _ _ V), X.
  - intros n u I1. destruct (Pr n u I1) as [X|(X1 & X2 & X3)]; [left; exact X|right]. split; [exact X1|]. split; [exact X2|]. apply in_or_app. auto.
  - intros u I1. apply in_app_or in I1 as [I1|I1]; [auto|]. right. destruct (Op u I1) as [B H]. split; [exact B|]. split; [|auto].
    intros X. apply (sub_opened _ _ _ _ _ _ u V) in X as [_ X]. lia.
  - auto.
  - intros _. rewrite Tr. apply (p_busy _ _ _ _ _ _ V). rewrite Td. discriminate.
  - unfold quiet. rewrite (next_latest _ _ _ _ _ _ La), Qm.
    constructor; rewrite ?Tr, ?next_sets, ?next_brought, ?opened_in_app; cbn [after_next todo]; rewrite ?upd_same.
    + exact Ti.
    + intros n u I1. apply (T2 n u), IG, I1.
    + intros n u I1. apply in_or_app. destruct (IO n u I1) as [X|X]; [left; exact (T3 n u X)|right; exact X].
    + exact T4.
    + intros u X. destruct (T5 u X) as [X1|X1]; [apply CG, X1|right; apply (m_closed _ _ _ _ _ _ _ _ Mv), X1].
    + intros u X. apply in_app_or in X as [X|X]; [|apply CO; auto].
      destruct (T6 u X) as [X1|X1]; [apply CO; auto|right; apply (m_closed _ _ _ _ _ _ _ _ Mv), X1].
    + rewrite answered_app, <- app_assoc, An, <- Td. exact T7.
    + intros u X. apply in_or_app. auto.
    + intros u X Y. apply in_app_or in Y as [Y|Y]; [exact (T9 u X Y)|]. apply Op in Y as [Y _].
      pose proof (proj1 (p_brought _ _ _ _ _ _ V i u (T8 u X))). lia.
Qed.

Lemma upd_id {A} (f : nat -> A) j k : upd f k (f k) j = f j.
Proof. unfold upd. destruct (Nat.eqb_spec j k) as [->|]; reflexivity. Qed.

(** A step that leaves the table alone. *)
Lemma next_plain e : tidy (map fst (PG i)) (map fst (PO i)) l -> opened_in [e] = [] -> answered [e] ++ ends l = ends (m :: l) ->
  exists ges' PG' PO', pinv (es ++ [(i, (PNext, PSeen e))]) (after_next s) ges' PG' PO' /\
    forall j p tail u, finds (now (after_next s)) j p tail u <-> finds (now w) j p tail u.
Proof.
  intros Ti Op An. exists ges, (upd PG i (PG i)), (upd PO i (PO i)). split.
  - apply (next_frame e s ges (fun _ => False)); rewrite ?Op; auto.
    + constructor; cbn [after_next now todo]; auto.
      * eapply linv_same; [exact (p_ghost _ _ _ _ _ _ V)|]. intros j. apply host_step_same.
      * tauto.
      * intros j D. split; [apply upd_other, D|]. cbn. apply upd_other, D.
    + exists []. symmetry. apply app_nil_r.
    + intros u [].
    + apply incl_refl.
    + intros u [X|[]]. auto.
  - intros j p tail u. unfold finds. cbn [after_next now host_step after table trees own kern lib tree]. rewrite upd_id. reflexivity.
Qed.

(** One that opens. *)
Lemma next_open o on n : 0 <= n -> lookup n (table (now w)) = None -> tidy (map fst (PG i)) (n :: map fst (PO i)) l -> ends (m :: l) = ends l ->
  let e := Asked o on (Some (fresh (now w))) in
  exists ges' PG' PO', pinv (es ++ [(i, (PNext, PSeen e))]) (after_next (arrive n s)) ges' PG' PO' /\
    forall j p tail u, finds (now (after_next (arrive n s))) j p tail u <-> finds (now w) j p tail u.
Proof.
  intros P Lk Ti En e. pose proof (p_ghost _ _ _ _ _ _ V) as L.
  set (ges' := ges ++ [(i, (Host (Open n), Did (Opened (fresh (now w)))))]).
  destruct (host_moves debug ges (now w) i (Open n) _ _ L (allowed_open ges (now w) i n P Lk) eq_refl) as (V' & _ & Fr & Num & Clo & _ & Fi).
  cbn [host_step] in V'. change (St (tree s) (kern s ++ [(n, next s)]) (S (next s)) (closes s)) with (arrive n s) in *. change (next s) with (fresh (now w)) in V', Num. fold ges' in V', Num.
  assert (Pg : prog ges' = prog ges ++ [(Open n, Opened (fresh (now w)))]) by apply prog_host.
  assert (Hn : holds (prog ges') (fresh (now w))).
  { rewrite Pg. apply holds_new.
    - intros r0 Y. apply (v_closing _ _ _ L) in Y. lia.
    - intros p f r0 Y. apply (v_adding _ _ _ L) in Y. lia. }
  exists ges', (upd PG i (PG i)), (upd PO i ((n, fresh (now w)) :: PO i)). split; [|exact (Fi (or_introl (ex_intro _ n eq_refl)))].
  apply (next_frame e (arrive n s) ges' (fun _ => False)); auto.
  - constructor; cbn [after_next now todo]; auto.
    + intros u H _. rewrite Pg. apply holds_keep; [exact H|intros [X|[]]; discriminate|intros p f [X|[]]; discriminate].
    + tauto.
    + intros j D. split; [apply upd_other, D|]. cbn. apply upd_other, D.
  - intros j. apply only_settings_host.
  - exists [(Open n, Opened (fresh (now w)))]. exact Pg.
  - intros m' u I1. rewrite in_app_iff in I1. destruct I1 as [I1|[I1|I1]].
    + left. split; [apply in_or_app; auto|auto].
    + injection I1 as <- <-. right. split; [cbn; rewrite lookup_app; change (kern s) with (table (now w)); rewrite Lk, lookup_one, Z.eqb_refl; reflexivity|]. split; [exact Hn|left; reflexivity].
    + left. split; [apply in_or_app; auto|auto].
  - intros u [<-|[]]. split; [cbn; change (next s) with (fresh (now w)); lia|exact Hn].
  - apply incl_refl.
  - intros m' u [X|X]; [injection X as <- <-; right; left; reflexivity|auto].
  - intros u [X|[<-|[]]]; left; [right; exact X|left; reflexivity].
Qed.

(** One that closes. *)
Lemma next_close f u r0 : In (f, u) (PG i ++ PO i) -> forall G O,
  incl G (PG i) -> incl O (PO i) -> (forall x, In x (PG i) -> In x G \/ x = (f, u)) -> (forall x, In x (PO i) -> In x O \/ x = (f, u)) ->
  (forall n, ~ In (n, u) (G ++ O)) -> tidy (map fst G) (map fst O) l -> m = MAsk (KClose f) r0 ->
  let e := Asked (KClose f) (Some u) None in
  exists ges' PG' PO', pinv (es ++ [(i, (PNext, PSeen e))]) (after_next (shut f u s)) ges' PG' PO' /\
    forall j p tail v, finds (now (after_next (shut f u s))) j p tail v <-> finds (now w) j p tail v.
Proof.
  intros I0 G O IG IO CG CO Nu Ti Em e. pose proof (p_ghost _ _ _ _ _ _ V) as L.
  destruct (p_pair _ _ _ _ _ _ V i f u I0) as (Lk & Hu & Bu).
  set (ges' := ges ++ [(i, (Host (Close u), Did Done))]).
  destruct (host_moves debug ges (now w) i (Close u) _ _ L Hu (step_close debug ges (now w) i f u L Hu Lk)) as (V' & _ & Fr & Num & Clo & _ & Fi). fold ges' in V', Num.
  assert (Pg : prog ges' = prog ges ++ [(Close u, Done)]) by apply prog_host.
  assert (Cl : closings (now (after_next (shut f u s))) u = 1%nat) by (eapply closed_once; eauto).
  exists ges', (upd PG i G), (upd PO i O). split; [|exact (Fi (or_intror (ex_intro _ u eq_refl)))].
  apply (next_frame e (shut f u s) ges' (fun v => v = u)); auto.
  - constructor; cbn [after_next now todo]; auto.
    + intros v H D. rewrite Pg. apply holds_close. auto.
    + intros v ->. right. auto.
    + intros j D. split; [apply upd_other, D|]. cbn. apply upd_other, D.
  - intros j. apply only_settings_host.
  - exists [(Close u, Done)]. exact Pg.
  - intros v ->. exact (proj1 (proj2 (p_brought _ _ _ _ _ _ V i u Bu))).
  - intros n v I1. left. split.
    + apply in_app_or in I1 as [I1|I1]; apply in_or_app; auto.
    + intros ->. exact (Nu n I1).
  - intros v [].
  - intros v I1. apply in_map_iff in I1 as ([n v'] & E & I1). cbn in E. subst v'. destruct (CG _ I1) as [X|X]; [left; apply in_map_iff; exists (n, v); auto|].
    injection X as -> ->. auto.
  - intros v [I1|[]]. apply in_map_iff in I1 as ([n v'] & E & I1). cbn in E. subst v'. destruct (CO _ I1) as [X|X]; [left; apply in_map_iff; exists (n, v); auto|].
    injection X as -> ->. auto.
  - rewrite Em. reflexivity.
Qed.
End ONE.

(** What is right about a step, given what the request has done before. *)
Definition proper (es : phistory) (w : par) (i : nat) (q : request) (got : option nat) (evs : list seen) (e : seen) : Prop :=
  match e with
  | Asked o on new => rightful (own (lib (now w) i)) (sets i es) got (opened_in evs) o on /\ (new <> None -> on <> None) /\
      forall u, on = Some u -> exported (now w) i u \/ In u (brought i es)
  | Replied n fd => q_sends q = true /\ forall x, fd = Some x -> exists u, x = Some u /\ In u (opened_in evs) /\ closings (now w) u = 0%nat
  | Killed => q_sends q = false
  end.

Lemma step_shape i w m l s' e : todo w i = m :: l -> micro_step debug m (own (lib (now w) i)) = Ret (s', e) ->
  pstep debug heaps i PNext w = (after_next w i l s', PSeen e).
Proof. intros Td E. cbn [pstep]. rewrite Td. change (St (trees (now w) i) (table (now w)) (fresh (now w)) (closed (now w))) with (own (lib (now w) i)). rewrite E. reflexivity. Qed.

Lemma map_fst_filter f (l : list (Z * nat)) : map fst (filter (fun x => negb (fst x =? f)) l) = remove Z.eq_dec f (map fst l).
Proof.
  induction l as [|[n u] l IH]; cbn; [reflexivity|]. destruct (Z.eqb_spec n f) as [->|D]; cbn; destruct (Z.eq_dec f _) as [E|E]; try congruence.
Qed.

Lemma pinv_next es w ges PG PO i w' r : pinv es w ges PG PO -> pallowed es w i PNext -> pstep debug heaps i PNext w = (w', r) ->
  exists e q got evs ges' PG' PO', r = PSeen e /\ latest i es = Some (q, got, evs) /\ proper es w i q got evs e /\
    pinv (es ++ [(i, (PNext, PSeen e))]) w' ges' PG' PO' /\
    (forall j, policies (now w') j = policies (now w) j /\ trees (now w') j = trees (now w) j) /\
    forall j p tail u, finds (now w') j p tail u <-> finds (now w) j p tail u.
Proof.
  intros V Al E. pose proof (p_ghost _ _ _ _ _ _ V) as L. cbn [pallowed] in Al. destruct (todo w i) as [|m l] eqn:Td; [destruct Al|].
  pose proof (p_quiet _ _ _ _ _ _ V i) as Q. unfold quiet in Q.
  destruct (latest i es) as [[[q got] evs]|] eqn:La; [|destruct Q as [Q _]; congruence].
  destruct (q_msg q) as [[rq sent]|] eqn:Qm; [|destruct Q as [Q _]; congruence].
  assert (Bz : todo w i <> []) by (rewrite Td; discriminate). pose proof (p_busy _ _ _ _ _ _ V i Bz) as Tn.
  destruct (trees (now w) i) as [t|] eqn:Et; [|congruence].
  set (s := own (lib (now w) i)).
  destruct (v_runs _ _ _ L i) as (ei & Ri & _). fold s in Ri.
  pose proof (tree_open debug ei s t Ri Et) as Tr.
  destruct (table_nodup debug _ _ L) as (N1 & N2 & N3).
  assert (Nm : lookup (-1) (table (now w)) = None) by (apply never_minus; intros n u I1; apply (N3 n u I1)).
  (* what an exported descriptor refers to *)
  assert (Ex : forall p f tail, lookup_file t p = Some (f, tail) -> (f = -1 /\ lookup f (table (now w)) = None \/ exists v, lookup f (table (now w)) = Some v /\ lookup f (kern s) = Some v) /\
     forall u, lookup f (table (now w)) = Some u -> exported (now w) i u).
  { intros p f tail Lf. split; [destruct (Tr p f tail Lf) as [-> |(v & K)]; [left; auto|right; exists v; auto]|].
    intros u K. exists t, p, f, tail. auto. }
  assert (File : forall f, file_fd t f -> exported_file_is s f (lookup f (table (now w))) /\ forall u, lookup f (table (now w)) = Some u -> exported (now w) i u).
  { intros f (p & tail & Lf & C). destruct (Ex p f tail Lf) as [X Y]. split; [|exact Y]. exists t, p, tail. split; [exact Et|]. split; [exact Lf|]. split; [exact C|].
    destruct X as [X|(v & K & K')]; [left; exact X|right; exists v; auto]. }
  assert (Reach : forall o, reach t o -> opens o = true /\ rightful s (sets i es) got (opened_in evs) o (on_of o s) /\ forall u, on_of o s = Some u -> exported (now w) i u \/ In u (brought i es)).
  { intros o [f Ff|f Ff|f p flags mode (p0 & tail & Lf & Nt & Bp)].
    - destruct (File f Ff) as [X Y]. split; [reflexivity|]. split; [apply R_dup, X|intros u K; left; apply Y, K].
    - destruct (File f Ff) as [X Y]. split; [reflexivity|]. split; [apply R_open_file, X|intros u K; left; apply Y, K].
    - destruct (Ex p0 f tail Lf) as [X Y]. split; [reflexivity|]. split; [|intros u K; left; apply Y, K].
      eapply R_open; [|exact Bp]. exists t, p0, tail. split; [exact Et|]. split; [exact Lf|]. split; [reflexivity|]. split; [exact Nt|].
      destruct X as [X|(v & K & K')]; [left; exact X|right; exists v; auto]. }
  assert (PairG : forall f u, In (f, u) (PG i) -> lookup f (table (now w)) = Some u /\ got = Some u /\ In u (brought i es)).
  { intros f u I1. destruct (p_pair _ _ _ _ _ _ V i f u) as (K & _ & B); [apply in_or_app; auto|]. split; [exact K|]. split; [exact (r_got _ _ _ _ _ _ _ _ _ _ Q f u I1)|exact B]. }
  assert (PairO : forall f, In f (map fst (PO i)) -> exists u, In (f, u) (PO i) /\ lookup f (table (now w)) = Some u /\ In u (opened_in evs) /\ In u (brought i es) /\ closings (now w) u = 0%nat).
  { intros f I1. apply in_map_iff in I1 as ([f' u] & X & I1). cbn in X. subst f'. exists u. split; [exact I1|]. destruct (p_pair _ _ _ _ _ _ V i f u) as (K & H & B); [apply in_or_app; auto|].
    split; [exact K|]. split; [exact (r_open _ _ _ _ _ _ _ _ _ _ Q f u I1)|]. split; [exact B|]. exact (proj1 (held_open debug ges (now w) u L H)). }
  assert (OneG : forall f, map fst (PG i) = [f] -> exists u, PG i = [(f, u)]).
  { intros f X. destruct (PG i) as [|[f' u] [|? ?]]; try discriminate. cbn in X. injection X as ->. eauto. }
  assert (Done : forall s1 e, micro_step debug m s = Ret (s1, e) -> tree s1 = trees (now w) i -> proper es w i q got evs e ->
    (exists ges' PG' PO', pinv (es ++ [(i, (PNext, PSeen e))]) (after_next w i l s1) ges' PG' PO' /\ forall j p tail u, finds (now (after_next w i l s1)) j p tail u <-> finds (now w) j p tail u) ->
    exists e0 q0 got0 evs0 ges' PG' PO', r = PSeen e0 /\ Some (q, got, evs) = Some (q0, got0, evs0) /\ proper es w i q0 got0 evs0 e0 /\
      pinv (es ++ [(i, (PNext, PSeen e0))]) w' ges' PG' PO' /\
      (forall j, policies (now w') j = policies (now w) j /\ trees (now w') j = trees (now w) j) /\
      forall j p tail u, finds (now w') j p tail u <-> finds (now w) j p tail u).
  { intros s1 e Ms Ts Pr (ges' & PG' & PO' & V' & Fi). rewrite (step_shape i w m l s1 e Td Ms) in E. injection E as <- <-.
    exists e, q, got, evs, ges', PG', PO'. split; [reflexivity|]. split; [reflexivity|]. split; [exact Pr|]. split; [exact V'|]. split; [|exact Fi].
    intros j. cbn [after_next now host_step after policies trees own net]. unfold upd. destruct (Nat.eqb_spec j i) as [->|]; split; auto; congruence. }
  rewrite <- Et in *.
  assert (Open : forall o r0 , m = MAsk o r0 -> opens o = true -> rightful s (sets i es) got (opened_in evs) o (on_of o s) ->
    (forall u, on_of o s = Some u -> exported (now w) i u \/ In u (brought i es)) ->
    tidy (tree_of (trees (now w) i)) (sets i es) (cr_kind rq =? 3) sent (map fst (PG i)) (plus r0 (map fst (PO i))) l ->
    exists e0 q0 got0 evs0 ges' PG' PO', r = PSeen e0 /\ Some (q, got, evs) = Some (q0, got0, evs0) /\ proper es w i q0 got0 evs0 e0 /\
      pinv (es ++ [(i, (PNext, PSeen e0))]) w' ges' PG' PO' /\
      (forall j, policies (now w') j = policies (now w) j /\ trees (now w') j = trees (now w) j) /\
      forall j p tail u, finds (now w') j p tail u <-> finds (now w) j p tail u).
  { intros o r0 -> Oo Ri0 Or Ti. unfold plus in Ti. destruct (Z.leb_spec 0 (fst r0)) as [P|P].
    - destruct (Al Oo P) as [A1 A2].
      apply (Done (arrive (fst r0) s) (Asked o (on_of o s) (Some (fresh (now w))))); [exact (asks_open debug r0 o s Oo P)|reflexivity| |].
      + split; [exact Ri0|]. split; [|exact Or]. intros _. unfold on_of. destruct o; try discriminate Oo; cbn [subject]; apply A2; reflexivity.
      + apply (next_open es w ges PG PO i (MAsk o r0) l q rq sent got evs V Td La Qm); auto.
    - apply (Done s (Asked o (on_of o s) None)); [exact (asks_fail debug r0 o s Oo P)|reflexivity| |].
      + split; [exact Ri0|]. split; [congruence|exact Or].
      + eapply (next_plain es w ges PG PO i (MAsk o r0) l q rq sent got evs V Td La Qm); [exact Ti|reflexivity|reflexivity]. }
  assert (Plain : forall o r0, m = MAsk o r0 -> GateProof.plain o = true -> rightful s (sets i es) got (opened_in evs) o (on_of o s) ->
    (forall u, on_of o s = Some u -> exported (now w) i u \/ In u (brought i es)) ->
    tidy (tree_of (trees (now w) i)) (sets i es) (cr_kind rq =? 3) sent (map fst (PG i)) (map fst (PO i)) l ->
    exists e0 q0 got0 evs0 ges' PG' PO', r = PSeen e0 /\ Some (q, got, evs) = Some (q0, got0, evs0) /\ proper es w i q0 got0 evs0 e0 /\
      pinv (es ++ [(i, (PNext, PSeen e0))]) w' ges' PG' PO' /\
      (forall j, policies (now w') j = policies (now w) j /\ trees (now w') j = trees (now w) j) /\
      forall j p tail u, finds (now w') j p tail u <-> finds (now w) j p tail u).
  { intros o r0 -> Oo Ri0 Or Ti. apply (Done s (Asked o (on_of o s) None)); [exact (asks_plain debug r0 o s Oo)|reflexivity| |].
    - split; [exact Ri0|]. split; [congruence|exact Or].
    - eapply (next_plain es w ges PG PO i (MAsk o r0) l q rq sent got evs V Td La Qm); [exact Ti|reflexivity|reflexivity]. }
  pose proof (r_tidy _ _ _ _ _ _ _ _ _ _ Q) as Ti. rewrite Td in Ti.
  assert (Tt : tree_of (trees (now w) i) = t) by (rewrite Et; reflexivity). rewrite Tt in *.
  inversion Ti as [O HO|G O o r0 l0 Hr Hl|G O f b r0 l0 Hf Hl|G O f o r0 l0 Hi Hk Hl|G O f r0 l0 Hi Hl|O f r0 l0 Hl HG|G O who a b c r0 l0 Hn Hl|O who op f buf len r0 l0 Hn Hl HG|G O f path flags mode r0 l0 Hg Hl|G O n fd l0 Hfd Hl|G O l0 Hl]; subst.
  - destruct (Reach o Hr) as (R1 & R2 & R3). apply (Open o r0 eq_refl R1 R2 R3 Hl).
  - destruct (File f Hf) as [X Y]. apply (Plain (KFstat f b) r0 eq_refl eq_refl); [apply R_fstat, X|intros u K; left; apply Y, K|exact Hl].
  - destruct (PairO f Hi) as (u & I1 & K & Ou & B & C).
    assert (On : on_of o s = Some u) by (destruct Hk; exact K).
    apply (Plain o r0 eq_refl); [destruct Hk; reflexivity| |intros v X; rewrite On in X; injection X as <-; auto|exact Hl].
    rewrite On. destruct Hk; [apply R_stat_opened|apply R_access_opened]; exact Ou.
  - destruct (PairO f Hi) as (u & I1 & K & Ou & B & C).
    assert (P : 0 <= f) by (apply (N3 f u), (lookup_in _ _ _ N1), K).
    apply (Done (shut f u s) (Asked (KClose f) (Some u) None)); [exact (asks_close debug r0 f u s P K)|reflexivity| |].
    + split; [apply R_close_opened, Ou|]. split; [congruence|]. intros v X. injection X as <-. auto.
    + eapply (next_close es w ges PG PO i (MAsk (KClose f) r0) l q rq sent got evs V Td La Qm f u r0); [apply in_or_app; auto|apply incl_refl|apply (incl_filter (fun x => negb (fst x =? f)))|auto| | | |reflexivity].
      * intros [f' u'] X. destruct (Z.eqb_spec f' f) as [->|D].
        -- right. destruct (p_pair _ _ _ _ _ _ V i f u') as (K' & _); [apply in_or_app; auto|]. congruence.
        -- left. apply filter_In. split; [exact X|]. cbn. apply Z.eqb_neq in D. rewrite D. reflexivity.
      * intros n X. assert (Y : In (n, u) (PG i) \/ In (n, u) (PO i) /\ n <> f).
        { apply in_app_or in X as [X|X]; [auto|]. apply filter_In in X as [X Y]. right. split; [exact X|]. cbn in Y. destruct (Z.eqb_spec n f); [discriminate|assumption]. }
        destruct Y as [Y|[Y D]].
        -- destruct (PairG n u Y) as (_ & Gu & _). exact (r_apart _ _ _ _ _ _ _ _ _ _ Q u Gu Ou).
        -- destruct (p_pair _ _ _ _ _ _ V i n u) as (K' & _); [apply in_or_app; auto|]. apply D.
           apply (lookup_in _ _ _ N1) in K, K'. exact (nodup_snd _ _ _ _ N2 K' K).
      * rewrite map_fst_filter. exact Hl.
  - destruct (OneG f (eq_sym HG)) as [u Gu]. destruct (PairG f u) as (K & Eg & B); [rewrite Gu; left; reflexivity|].
    assert (P : 0 <= f) by (apply (N3 f u), (lookup_in _ _ _ N1), K).
    apply (Done (shut f u s) (Asked (KClose f) (Some u) None)); [exact (asks_close debug r0 f u s P K)|reflexivity| |].
    + split; [apply R_close_sent, Eg|]. split; [congruence|]. intros v X. injection X as <-. auto.
    + eapply (next_close es w ges PG PO i (MAsk (KClose f) r0) l q rq sent got evs V Td La Qm f u r0) with (G := []) (O := PO i); [apply in_or_app; left; rewrite Gu; left; reflexivity|intros x []|apply incl_refl| |auto| | |reflexivity].
      * rewrite Gu. intros x [<-|[]]. auto.
      * intros n X. exact (r_apart _ _ _ _ _ _ _ _ _ _ Q u Eg (r_open _ _ _ _ _ _ _ _ _ _ Q n u X)).
      * exact Hl.
  - destruct Hn as (setting & S1 & S2). apply (Plain (KNet who NGetAddrInfo (NNames a b c)) r0 eq_refl eq_refl); [eapply R_names; eauto|intros u X; discriminate|exact Hl].
  - destruct (OneG f (eq_sym HG)) as [u Gu]. destruct (PairG f u) as (K & Eg & B); [rewrite Gu; left; reflexivity|].
    assert (On : on_of (KNet who op (NAddr f buf len)) s = Some u) by exact K.
    destruct Hn as (setting & S1 & S2). apply (Plain (KNet who op (NAddr f buf len)) r0 eq_refl eq_refl); [rewrite On; eapply R_net; eauto|intros v X; rewrite On in X; injection X as <-; auto|rewrite <- HG; exact Hl].
  - assert (On : on_of (KOpenat2 f path flags mode 8) s = got /\ (got = None -> f = -1) /\ forall u, got = Some u -> In u (brought i es)).
    { split; [|split]; [| |exact (r_in _ _ _ _ _ _ _ _ _ _ Q)].
      - destruct Hg as [HG|(HG & -> & ->)]; [destruct (OneG f HG) as [u Gu]; destruct (PairG f u) as (K & Eg & _); [rewrite Gu; left; reflexivity|]; rewrite Eg; exact K|].
        rewrite (r_none _ _ _ _ _ _ _ _ _ _ Q eq_refl). exact Nm.
      - intros Gn. destruct Hg as [HG|(_ & -> & _)]; [|reflexivity]. destruct (OneG f HG) as [u Gu]. destruct (PairG f u) as (_ & Eg & _); [rewrite Gu; left; reflexivity|congruence]. }
    destruct On as (On & Gn & Gb).
    apply (Open (KOpenat2 f path flags mode 8) r0 eq_refl eq_refl); [rewrite On; apply R_open_sent, Gn|intros u X; rewrite On in X; auto|exact Hl].
  - apply (Done s (Replied n (option_map (fun n => lookup n (kern s)) fd))); [reflexivity|reflexivity| |].
    + split.
      * pose proof (r_answer _ _ _ _ _ _ _ _ _ _ Q) as An. rewrite Td in An. cbn in An. destruct (answered evs) as [|x [|y z]]; [injection An as -> _; reflexivity|discriminate|destruct z; discriminate].
      * intros x X. destruct fd as [k|]; [|discriminate]. injection X as <-. destruct (PairO k (Hfd k eq_refl)) as (u & _ & K & Ou & _ & C). exists u. auto.
    + eapply (next_plain es w ges PG PO i (MReply n fd) l q rq sent got evs V Td La Qm); [exact Hl|reflexivity|reflexivity].
  - apply (Done s Killed); [reflexivity|reflexivity| |].
    + pose proof (r_answer _ _ _ _ _ _ _ _ _ _ Q) as An. rewrite Td in An. cbn in An. cbn. destruct (answered evs) as [|x [|y z]]; [injection An as <- _; reflexivity|discriminate|destruct z; discriminate].
    + eapply (next_plain es w ges PG PO i MKill l q rq sent got evs V Td La Qm); [exact Hl|reflexivity|reflexivity].
Qed.

Lemma pruns_pinv es w : pruns debug heaps es w -> exists ges PG PO, pinv es w ges PG PO.
Proof.
  induction 1 as [|es w i o w' r R (ges & PG & PO & V) Al E]; [eexists _, _, _; apply pinv_0|].
  destruct o as [o|no p|q|].
  - cbn [pstep] in E. change (St (trees (now w) i) (table (now w)) (fresh (now w)) (closed (now w))) with (own (lib (now w) i)) in E.
    destruct (step debug o (own (lib (now w) i))) as [s' ro] eqn:S. injection E as <- <-.
    destruct (pinv_host debug _ _ _ _ _ _ _ _ _ V Al S) as (_ & _ & ges' & V'). eauto.
  - cbn [pstep] in E. injection E as <- <-. destruct (pinv_set debug _ _ _ _ _ i no p V Al) as (ges' & V'). eauto.
  - destruct (pinv_begin debug shm size hdr M _ _ _ _ _ _ _ _ _ V Al E) as (got & ges' & PG' & PO' & -> & V' & _). eauto.
  - destruct (pinv_next _ _ _ _ _ _ _ _ V Al E) as (e & q & got & evs & ges' & PG' & PO' & -> & _ & _ & V' & _). eauto.
Qed.
End NEXT.

(** ** A request served without interruption *)
Fixpoint play (debug : bool) (l : list micro) (s : state) : outcome (state * list seen) :=
  match l with
  | [] => Ret (s, [])
  | m :: l => obind (micro_step debug m s) (fun '(s1, e) => obind (play debug l s1) (fun '(s2, es) => Ret (s2, e :: es)))
  end.
Lemma play_app debug l2 : forall l s, play debug (l ++ l2) s =
  obind (play debug l s) (fun '(s1, es) => obind (play debug l2 s1) (fun '(s2, es2) => Ret (s2, es ++ es2))).
Proof.
  induction l as [|m l IH]; intros s; cbn [app play obind].
  - destruct (play debug l2 s) as [[? ?]| | | |]; reflexivity.
  - destruct (micro_step debug m s) as [[s1 e]| | | |]; cbn [obind]; try reflexivity. rewrite IH.
    destruct (play debug l s1) as [[s2 es]| | | |]; cbn [obind]; try reflexivity.
    destruct (play debug l2 s2) as [[s3 es3]| | | |]; reflexivity.
Qed.
Lemma play_asking debug k ops : forall before s, play debug (asking k before ops) s = perform debug k before ops s.
Proof.
  induction ops as [|o ops IH]; intros before s; cbn [asking play perform]; [reflexivity|]. cbn [micro_step].
  destruct (asks debug (k before o) o s) as [[s1 e]| | | |]; cbn [obind]; try reflexivity. rewrite IH. reflexivity.
Qed.
Lemma act_script debug h t np q l : forall before s s2 evs, act debug h t np q before l s = Ret (s2, evs) ->
  exists m, script h t np q before l = Ret m /\ play debug m s = Ret (s2, evs).
Proof.
  induction l as [|a l IH]; intros before s s2 evs A; cbn [act] in A; [injection A as <- <-; exists []; split; reflexivity|].
  match type of A with obind ?x _ = _ => destruct x as [[[s1 es1] b1]| | | |] eqn:X; try discriminate end. cbn [obind] in A.
  destruct (act debug h t np q b1 l s1) as [[s3 es3]| | | |] eqn:Y; try discriminate. injection A as <- <-.
  destruct (IH _ _ _ _ Y) as (m2 & S2 & P2).
  assert (K : exists m1, match a with
     | ALoad _ => Ret ([], before)
     | AInvoke tag bytes given =>
         obind (run_builtin (q_kernel q) t np h (q_mem1 q) (q_mem2 q) (q_hints q) (q_resolver q) (q_alloc q) tag bytes given)
           (fun '(_, e) => Ret (asking (q_kernel q) before (e_ops e), before ++ e_ops e))
     | AClose f => Ret ([MAsk (KClose f) (q_kernel q before (KClose f))], before ++ [KClose f])
     | AReply i f => Ret ([MReply i f], before)
     | ATerminate => Ret ([MKill], before)
     end = Ret (m1, b1) /\ play debug m1 s = Ret (s1, es1)).
  { destruct a as [n|tag bytes given|f|i f|].
    - injection X as <- <- <-. eexists. split; reflexivity.
    - destruct (run_builtin _ _ _ _ _ _ _ _ _ _ _ _) as [[rr e]| | | |]; try discriminate. cbn [obind] in *.
      destruct (perform debug (q_kernel q) before (e_ops e) s) as [[s4 es4]| | | |] eqn:Pf; try discriminate. injection X as <- <- <-.
      eexists. split; [reflexivity|]. rewrite play_asking. exact Pf.
    - destruct (asks debug (q_kernel q before (KClose f)) (KClose f) s) as [[s4 e]| | | |] eqn:Pf; try discriminate. injection X as <- <- <-.
      eexists. split; [reflexivity|]. cbn [play micro_step]. rewrite Pf. reflexivity.
    - injection X as <- <- <-. eexists. split; reflexivity.
    - injection X as <- <- <-. eexists. split; reflexivity. }
  destruct K as (m1 & K1 & K2). exists (m1 ++ m2). cbn [script]. rewrite K1. cbn [obind]. rewrite S2. split; [reflexivity|].
  rewrite play_app, K2. cbn [obind]. rewrite P2. reflexivity.
Qed.

Lemma play_nexts debug heaps i m : forall w s2 evs, todo w i = m -> play debug m (own (lib (now w) i)) = Ret (s2, evs) ->
  exists w2, nexts debug heaps i w evs w2 /\ todo w2 i = [] /\ (forall j, j <> i -> todo w2 j = todo w j) /\
    forall j, lib (now w2) j = lib (after (now w) i (Gate s2 (policies (now w) i))) j.
Proof.
  induction m as [|x m IH]; intros w s2 evs Td P; cbn [play] in P.
  - injection P as <- <-. exists w. split; [constructor|]. split; [exact Td|]. split; [auto|]. intros j. unfold lib, after. cbn. unfold upd.
    destruct (Nat.eqb_spec j i) as [->|]; reflexivity.
  - destruct (micro_step debug x (own (lib (now w) i))) as [[s1 e]| | | |] eqn:S; try discriminate. cbn [obind] in P.
    destruct (play debug m s1) as [[s3 es]| | | |] eqn:Pl; try discriminate. injection P as <- <-.
    set (w1 := Par (after (now w) i (Gate s1 (policies (now w) i))) (upd (todo w) i m)).
    assert (E1 : pstep debug heaps i PNext w = (w1, PSeen e)).
    { cbn [pstep]. rewrite Td. change (St (trees (now w) i) (table (now w)) (fresh (now w)) (closed (now w))) with (own (lib (now w) i)). rewrite S. reflexivity. }
    assert (T1 : todo w1 i = m) by apply upd_same.
    assert (O1 : own (lib (now w1) i) = s1). { unfold w1, lib, after. cbn. rewrite upd_same. destruct s1; reflexivity. }
    destruct (IH w1 s3 es T1) as (w2 & N & T2 & T3 & L2); [rewrite O1; exact Pl|]. exists w2. split; [econstructor; eassumption|]. split; [exact T2|].
    split; [intros j D; rewrite T3 by exact D; apply upd_other, D|]. intros j. rewrite L2. unfold lib, after, w1. cbn. unfold upd. rewrite !Nat.eqb_refl. destruct (Nat.eqb_spec j i) as [->|]; reflexivity.
Qed.

Lemma begin_serve debug heaps i q w w1 evs : lstep debug heaps i (Serve q) (now w) = (w1, Served evs) ->
  exists got w2 w3, pstep debug heaps i (PBegin q) w = (w2, PBegun got) /\ nexts debug heaps i w2 evs w3 /\ todo w3 i = [] /\
    (forall j, j <> i -> todo w3 j = todo w j) /\ forall j, lib (now w3) j = lib w1 j.
Proof.
  intros E. unfold lstep in E. destruct (gstep debug (heaps i) (Serve q) (lib (now w) i)) as [g r] eqn:G. injection E as <- ->.
  cbn [gstep] in G. cbn [pstep].
  change (own (lib (now w) i)) with (St (trees (now w) i) (table (now w)) (fresh (now w)) (closed (now w))) in *.
  change (net (lib (now w) i)) with (policies (now w) i) in *. cbn [tree] in *.
  destruct (trees (now w) i) as [t|] eqn:Et; [|discriminate].
  match type of G with context [act ?a ?b ?c ?d ?e ?f ?l ?s] => destruct (act a b c d e f l s) as [[s2 es2]| | | |] eqn:A; try discriminate end.
  injection G as <- <-. destruct (act_script _ _ _ _ _ _ _ _ _ _ A) as (m & S & P). rewrite S. cbv zeta.
  eexists. set (s1 := receive q _) in *. set (w2 := Par (after (now w) i (Gate s1 (policies (now w) i))) (upd (todo w) i m)). exists w2.
  destruct (play_nexts debug heaps i m w2 s2 es2) as (w3 & N & T & T' & L).
  - apply upd_same.
  - assert (O1 : own (lib (now w2) i) = s1). { unfold w2, lib, after. cbn. rewrite upd_same. destruct s1; reflexivity. }
    rewrite O1. exact P.
  - exists w3. split; [reflexivity|]. split; [exact N|]. split; [exact T|]. split; [intros j D; rewrite T' by exact D; apply upd_other, D|].
    intros j. rewrite L. unfold lib, after, w2. cbn. unfold upd. rewrite !Nat.eqb_refl. destruct (Nat.eqb_spec j i) as [->|]; reflexivity.
Qed.
