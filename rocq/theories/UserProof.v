(** Proofs about a program with handlers of its own.  A descriptor that comes with
    a request for such a handler is, for LibsModel, one that the program opens; so
    the invariant of LibsProof carries over. *)
From Coq Require Import String Ascii List ZArith Lia Bool Permutation Arith.
From Verif Require Import Base PathModel PathSpec PathProof FileTreeModel FileTreeSpec RegionModel RegionSpec RegionProof
  DispatchModel DispatchProps HostCallsModel HostCallsSpec NetProof NetProps ChildCallsModel EffectsModel
  HandleModel OwnModel OwnSpec OwnProof OwnProps GateModel GateSpec GateProof GateProps LibsModel LibsSpec LibsProof LibsProps ParModel ParSpec ParProof
  UserModel UserSpec.
Import ListNotations.
Local Open Scope Z_scope.

Local Notation prog es := (program (all es)).

(** ** The program's descriptors and those of LibsModel *)
Section CORE.
Variable debug : bool.
Local Notation linv := (linv debug).

(** [H]: the program's use of descriptors; [S]: what waits for a handler to end. *)
Record core (H : list (op * OwnModel.result)) (S : nat -> Prop) (ges : history) (b : host) : Prop := {
  c_linv : linv ges b;
  c_holds : forall u, holds H u -> holds (prog ges) u;
  c_back : forall u, opened H u -> holds (prog ges) u -> holds H u;
  c_sub : forall x, In x H -> In x (prog ges);
  c_kept : forall v, S v -> holds (prog ges) v /\ ~ opened H v }.

Lemma core_0 : core [] (fun _ => False) [] new_host.
Proof.
  constructor.
  - exact (linv_0 debug).
  - intros u ((n & []) & _).
  - intros u (n & []).
  - intros x [].
  - intros v [].
Qed.
Lemma core_opened H S ges b u : core H S ges b -> opened H u -> opened (prog ges) u /\ (u < fresh b)%nat.
Proof.
  intros C (n & I1). assert (O : opened (prog ges) u) by (exists n; apply (c_sub _ _ _ _ C), I1). split; [exact O|]. exact (v_opened _ _ _ (c_linv _ _ _ _ C) u O).
Qed.
Lemma core_kept_lt H S ges b v : core H S ges b -> S v -> (v < fresh b)%nat.
Proof. intros C Sv. apply (v_opened _ _ _ (c_linv _ _ _ _ C)), (c_kept _ _ _ _ C v Sv). Qed.
Lemma core_less H (S S' : nat -> Prop) ges b : core H S ges b -> (forall v, S' v -> S v) -> core H S' ges b.
Proof.
  intros C X. constructor; try apply C. intros v Sv. apply (c_kept _ _ _ _ C), X, Sv.
Qed.
Lemma core_same H S ges b b' : core H S ges b -> (forall j, lib b' j = lib b j) -> core H S ges b'.
Proof. intros C E. constructor; try apply C. eapply linv_same; [apply C|exact E]. Qed.

Definition hands_on (ges' : history) (b b' : host) : Prop :=
  forall n u, lookup n (table b) = Some u -> holds (prog ges') u -> lookup n (table b') = Some u.

(** The program itself does something. *)
Lemma core_host H S ges b i o s' r : core H S ges b -> allowed H (own (lib b i)) o -> step debug o (own (lib b i)) = (s', r) ->
  let ges' := ges ++ [(i, (Host o, Did r))] in
  core (H ++ [(o, r)]) S ges' (host_step b i s') /\ r <> Aborted /\ (fresh b <= fresh (host_step b i s'))%nat /\ hands_on ges' b (host_step b i s') /\
  (forall u, closings b u = 1%nat -> closings (host_step b i s') u = 1%nat) /\
  (forall j p tail u, j <> i -> (finds (host_step b i s') j p tail u <-> finds b j p tail u)) /\
  (LibsProof.plain (o, r) -> forall j p tail u, finds (host_step b i s') j p tail u <-> finds b j p tail u).
Proof.
  intros C Al E ges'. pose proof (c_linv _ _ _ _ C) as L.
  assert (Al' : allowed (prog ges) (own (lib b i)) o).
  { destruct o as [n|p file who|u|]; cbn [allowed] in *; auto.
    - destruct Al as (A1 & A2 & A3). split; [exact A1|]. split; [exact A2|]. intros u Hu. apply (c_holds _ _ _ _ C), A3, Hu.
    - apply (c_holds _ _ _ _ C), Al. }
  destruct (host_moves debug ges b i o s' r L Al' E) as (V' & Na & Fr & Num & Clo & Ot & Pl). fold ges' in V', Num.
  split; [|split; [exact Na|split; [exact Fr|split; [exact Num|split; [exact Clo|split; [exact Ot|exact Pl]]]]]].
  assert (Pg : prog ges' = prog ges ++ [(o, r)]) by apply prog_host.
  assert (New : forall n u, (o, r) = (Open n, Opened u) -> u = fresh b).
  { intros n u X. destruct (open_step _ _ _ _ _ _ _ E X) as [X1 _]. exact X1. }
  assert (Tail : forall es0 es1 u, holds (es0 ++ [(o, r)]) u -> holds es1 u -> holds (es1 ++ [(o, r)]) u).
  { intros es0 es1 u H0 H1. apply holds_split in H0 as (_ & _ & X1 & X2). apply holds_keep; assumption. }
  constructor.
  - exact V'.
  - rewrite Pg. intros u ((n & X) & H2). apply in_snoc in X as [X|X].
    + apply (Tail H); [split; [exists n; apply in_snoc; auto|exact H2]|]. apply (c_holds _ _ _ _ C).
      apply (holds_back _ [(o, r)]); [exists n; exact X|]. split; [exists n; apply in_snoc; auto|exact H2].
    + rewrite X. pose proof (New n u X) as ->. apply holds_new.
      * intros r0 Y. apply (v_closing _ _ _ L) in Y. lia.
      * intros p f r0 Y. apply (v_adding _ _ _ L) in Y. lia.
  - rewrite Pg. intros u (n & X) H0. apply in_snoc in X as [X|X].
    + assert (O : opened H u) by (exists n; exact X). apply (Tail (prog ges)); [exact H0|]. apply (c_back _ _ _ _ C); [exact O|].
      apply (holds_back _ [(o, r)]); [exact (proj1 (core_opened _ _ _ _ u C O))|exact H0].
    + rewrite X. pose proof (New n u X) as ->. apply holds_new.
      * intros r0 Y. apply (c_sub _ _ _ _ C), (v_closing _ _ _ L) in Y. lia.
      * intros p f r0 Y. apply (c_sub _ _ _ _ C), (v_adding _ _ _ L) in Y. lia.
  - rewrite Pg. intros x X. apply in_snoc in X as [X|X]; apply in_snoc; [left; apply (c_sub _ _ _ _ C), X|right; exact X].
  - intros v Sv. destruct (c_kept _ _ _ _ C v Sv) as [Hv Nv]. split.
    + rewrite Pg. apply holds_keep; [exact Hv| |].
      * intros [X|[]]. injection X as -> ->. apply Nv, Al.
      * intros p f [X|[]]. injection X as -> ->. destruct Al as (_ & _ & A3). apply Nv, (A3 v eq_refl).
    + intros (n & X). apply in_snoc in X as [X|X]; [apply Nv; exists n; exact X|].
      apply New in X. pose proof (core_kept_lt _ _ _ _ v C Sv). lia.
Qed.

(** Descriptors arrive. *)
Lemma core_arrive H S ges b i ns : core H S ges b -> NoDup ns -> (forall n, In n ns -> 0 <= n /\ lookup n (table b) = None) ->
  core H S (ges ++ arrivals i ns (fresh b)) (with_more b ns) /\
  (forall j p tail u, finds (with_more b ns) j p tail u <-> finds b j p tail u) /\
  (forall n u, In (n, u) (pairs ns (fresh b)) -> In (Open n, Opened u) (prog (ges ++ arrivals i ns (fresh b))) /\ holds (prog (ges ++ arrivals i ns (fresh b))) u /\ ~ opened H u /\ ~ S u).
Proof.
  intros C N A. destruct (arrivals_moves debug i ns ges b (c_linv _ _ _ _ C) N A) as [V' F]. split; [|split; [exact F|]].
  - constructor.
    + exact V'.
    + intros u Hu. apply arrivals_keep, (c_holds _ _ _ _ C), Hu.
    + intros u Ou Hu. apply (c_back _ _ _ _ C); [exact Ou|]. rewrite prog_more in Hu. apply (holds_back _ _ _ (proj1 (core_opened _ _ _ _ _ C Ou)) Hu).
    + intros x X. rewrite prog_more. apply in_or_app. left. apply (c_sub _ _ _ _ C), X.
    + intros v Sv. destruct (c_kept _ _ _ _ C v Sv) as [Hv Nv]. split; [apply arrivals_keep, Hv|exact Nv].
  - intros n u I1. pose proof (pairs_bound _ _ _ _ I1) as Lu. split; [|split; [|split]].
    + rewrite prog_more, prog_arrivals. apply in_or_app. right. apply in_map_iff. exists (n, u). auto.
    + eapply arrivals_held; [apply C|exact I1].
    + intros O. apply (core_opened _ _ _ _ _ C) in O. lia.
    + intros Sv. apply (core_kept_lt _ _ _ _ _ C) in Sv. lia.
Qed.
(** One that arrived is given to the program, or waits. *)
Lemma core_give H S ges b n v : core H S ges b -> In (Open n, Opened v) (prog ges) -> holds (prog ges) v -> ~ opened H v -> ~ S v ->
  core (H ++ [(Open n, Opened v)]) S ges b.
Proof.
  intros C I1 Hv Nv Sv.
  assert (New : holds (H ++ [(Open n, Opened v)]) v).
  { split; [exists n; apply in_snoc; auto|]. destruct Hv as (_ & X1 & X2). split.
    - intros X. apply in_snoc in X as [X|X]; [|discriminate]. apply X1, (c_sub _ _ _ _ C), X.
    - intros p f X. apply in_snoc in X as [X|X]; [|discriminate]. eapply X2, (c_sub _ _ _ _ C), X. }
  constructor.
  - apply C.
  - intros u ((m & X) & H2). apply in_snoc in X as [X|X]; [|injection X as -> ->; exact Hv]. apply (c_holds _ _ _ _ C).
    apply (holds_back _ [(Open n, Opened v)]); [exists m; exact X|]. split; [exists m; apply in_snoc; auto|exact H2].
  - intros u (m & X) Hu. apply in_snoc in X as [X|X]; [|injection X as -> ->; exact New].
    apply holds_keep; [apply (c_back _ _ _ _ C); [exists m; exact X|exact Hu]| |].
    + intros [Y|[]]. discriminate.
    + intros p f [Y|[]]. discriminate.
  - intros x X. apply in_snoc in X as [X|X]; [apply (c_sub _ _ _ _ C), X|subst x; exact I1].
  - intros u Su. destruct (c_kept _ _ _ _ C u Su) as [Hu Nu]. split; [exact Hu|]. intros (m & X). apply in_snoc in X as [X|X]; [apply Nu; exists m; exact X|].
    injection X as -> ->. contradiction.
Qed.
Lemma core_keep H (S : nat -> Prop) ges b v : core H S ges b -> holds (prog ges) v -> ~ opened H v -> core H (fun u => u = v \/ S u) ges b.
Proof.
  intros C Hv Nv. constructor; try apply C. intros u [-> |Su]; [auto|]. apply (c_kept _ _ _ _ C), Su.
Qed.

(** Something that the program never had is closed. *)
Lemma core_shut H (S : nat -> Prop) ges b i f v : core H S ges b -> lookup f (table b) = Some v -> holds (prog ges) v -> ~ opened H v -> ~ S v ->
  let ges' := ges ++ [(i, (Host (Close v), Did Done))] in let b' := host_step b i (shut f v (own (lib b i))) in
  core H S ges' b' /\ fresh b' = fresh b /\ hands_on ges' b b' /\ (forall u, u <> v -> closings b' u = closings b u) /\ closings b' v = 1%nat /\
  (forall j p tail u, finds b' j p tail u <-> finds b j p tail u) /\ (forall u, holds (prog ges) u -> u <> v -> holds (prog ges') u).
Proof.
  intros C Lf Hv Nv Sv ges' b'. pose proof (c_linv _ _ _ _ C) as L. pose proof (step_close debug ges b i f v L Hv Lf) as E.
  destruct (host_moves debug ges b i (Close v) _ _ L Hv E) as (V' & _ & Fr & Num & _ & _ & Pl).
  assert (Pg : prog ges' = prog ges ++ [(Close v, Done)]) by apply prog_host.
  assert (Keep : forall u, holds (prog ges) u -> u <> v -> holds (prog ges') u).
  { intros u Hu D. rewrite Pg. apply holds_keep; [exact Hu| |].
    - intros [X|[]]. injection X as <-. congruence.
    - intros p g [X|[]]. discriminate. }
  assert (Back : forall u, opened (prog ges) u -> holds (prog ges') u -> holds (prog ges) u).
  { intros u O Hu. rewrite Pg in Hu. exact (holds_back _ _ _ O Hu). }
  split; [|split; [reflexivity|split; [exact Num|split; [|split; [eapply closed_once; eauto|split; [|exact Keep]]]]]].
  - constructor.
    + exact V'.
    + intros u Hu. apply Keep; [apply (c_holds _ _ _ _ C), Hu|]. intros ->. apply Nv, Hu.
    + intros u Ou Hu. apply (c_back _ _ _ _ C); [exact Ou|]. apply Back; [|exact Hu]. exact (proj1 (core_opened _ _ _ _ _ C Ou)).
    + intros x X. rewrite Pg. apply in_snoc. left. apply (c_sub _ _ _ _ C), X.
    + intros u Su. destruct (c_kept _ _ _ _ C u Su) as [Hu Nu]. split; [|exact Nu]. apply Keep; [exact Hu|]. intros ->. contradiction.
  - intros u D. unfold closings, times_closed. change (closes (own (lib b' 0))) with (closed b ++ [(f, Some v)]). rewrite filter_app, app_length.
    cbn [filter snd]. destruct (Nat.eqb_spec v u); [congruence|]. cbn [length]. rewrite Nat.add_0_r. reflexivity.
  - intros j p tail u. apply Pl. right. exists v. reflexivity.
Qed.
End CORE.

(** ** The actions at the ends of a call *)
Section ACTS.
Variables (debug : bool) (h : heap) (t : FileTreeModel.dir) (np : netpolicy) (q : request).

Lemma act_close before f v l s : 0 <= f -> lookup f (kern s) = Some v ->
  act debug h t np q before (AClose f :: l) s =
  obind (act debug h t np q (before ++ [KClose f]) l (shut f v s)) (fun '(s2, es) => Ret (s2, Asked (KClose f) (Some v) None :: es)).
Proof.
  intros P L. cbn [act]. rewrite (asks_close debug _ f v s P L). cbn [obind].
  destruct (act _ _ _ _ _ _ _ _) as [[s2 es]| | | |]; reflexivity.
Qed.
Lemma act_loads before tr : forall l s, act debug h t np q before (map ALoad tr ++ l) s = act debug h t np q before l s.
Proof.
  induction tr as [|a tr IH]; intros l s; [reflexivity|]. cbn [map app act obind]. rewrite IH. destruct (act _ _ _ _ _ _ _ _) as [[s2 es]| | | |]; reflexivity.
Qed.
Lemma act_answer before n fd (sends : bool) l s :
  act debug h t np q before ((if sends then [AReply n fd] else [ATerminate]) ++ l) s =
  obind (act debug h t np q before l s) (fun '(s2, es) => Ret (s2, answer sends n (option_map (fun m => lookup m (kern s)) fd) :: es)).
Proof.
  unfold answer. destruct sends; cbn [app act obind]; destruct (act _ _ _ _ _ _ _ _) as [[s2 es]| | | |]; reflexivity.
Qed.
End ACTS.

(** ** Which requests are for the program *)
Definition slots (l : list (Z * bool)) : list slot := map (fun x => SFn (7 + Z.of_nat (fst x)) (fst (snd x)) (snd (snd x))) (combine (seq 0 (length l)) l).
Lemma slots_snoc l x : slots (l ++ [x]) = slots l ++ [SFn (7 + Z.of_nat (length l)) (fst x) (snd x)].
Proof.
  unfold slots. rewrite app_length. cbn [length]. rewrite Nat.add_1_r, seq_S. cbn [Nat.add].
  assert (G : forall (a : list nat) (b : list (Z * bool)) c d, length a = length b -> combine (a ++ [c]) (b ++ [d]) = combine a b ++ [(c, d)]).
  { induction a as [|x0 a IH]; intros [|y b] c d E; try discriminate; [reflexivity|]. cbn. f_equal. apply IH. injection E as E. exact E. }
  rewrite G by apply seq_length. rewrite map_app. reflexivity.
Qed.
Lemma slots_length l : length (slots l) = length l.
Proof. unfold slots. rewrite map_length, combine_length, seq_length. apply Nat.min_id. Qed.
Lemma slots_nth l : forall k, nth_error (slots l) k = option_map (fun x => SFn (7 + Z.of_nat k) (fst x) (snd x)) (nth_error l k).
Proof.
  induction l as [|x l IH] using rev_ind; intros k; [destruct k; reflexivity|]. rewrite slots_snoc.
  destruct (Nat.lt_ge_cases k (length l)) as [Lt|Ge].
  - rewrite !nth_error_app1; [apply IH|exact Lt|rewrite slots_length; exact Lt].
  - rewrite !nth_error_app2; [|exact Ge|rewrite slots_length; exact Ge]. rewrite slots_length.
    destruct (k - length l)%nat as [|m] eqn:E; [|destruct m; reflexivity]. cbn [nth_error option_map]. replace k with (length l) by lia. reflexivity.
Qed.

Lemma entered_loads tr : forall l, entered (map ALoad tr ++ l) = entered l.
Proof. induction tr as [|a tr IH]; intros l; [reflexivity|]. cbn [map app entered]. apply IH. Qed.
Lemma entered_close fd : entered (close_opt fd) = None.
Proof. destruct fd; reflexivity. Qed.

Section SELECT.
Variables (shm size hdr : Z) (t : FileTreeModel.dir) (np : netpolicy).
Hypothesis M : mapping_ok shm size hdr.
Local Notation h := (library_heap shm size hdr).
Variables (l : list (Z * bool)) (d : dispatcher).
Hypothesis D : d_handlers d = numbering tuple_size (slots l).
Variables (fn : callables) (rd : reads) (rq : crequest) (fd : option Z) (sends : bool).
Hypothesis Wd : is_word (cr_kind rq) /\ is_word (cr_size rq) /\ is_word (cr_data rq).

Definition for_user (sz : Z) (tk : bool) : Prop := exists k, cr_kind rq = 7 + Z.of_nat k /\ nth_error l k = Some (sz, tk).

Lemma nth_user sz tk : for_user sz tk -> cr_kind rq <? Z.of_nat (length (d_handlers d)) = true /\
  nth_error (d_handlers d) (Z.to_nat (cr_kind rq)) = Some (SFn (cr_kind rq) sz tk).
Proof.
  intros (k & Ek & N). rewrite D, Ek. unfold numbering. replace (Z.to_nat (7 + Z.of_nat k)) with (7 + k)%nat by lia. split.
  - rewrite app_length, slots_length. assert (k < length l)%nat by (apply nth_error_Some; congruence). apply Z.ltb_lt. cbn [length]. lia.
  - cbn [Nat.add app nth_error]. rewrite slots_nth, N. reflexivity.
Qed.
Lemma fits_iff sz : fits shm size hdr rq sz <-> (cr_size rq =? sz) = true /\ contains h (cr_data rq) (cr_size rq) = true.
Proof. unfold fits. rewrite (contains_iff shm size hdr) by tauto. rewrite Z.eqb_eq. tauto. Qed.

Definition copied (sz : Z) : list ascii := map (fun k => rd k (cr_data rq + Z.of_nat k)) (seq 0 (Z.to_nat sz)).
Lemma user_fits sz tk : for_user sz tk -> fits shm size hdr rq sz ->
  exists later, (if tk then later = [] else later = close_opt fd) /\
  entered (snd (fst (select_handler d h fn rd rq fd))) = Some (cr_kind rq, copied sz, if tk then fd else None, later) /\
  exists loads, (snd (fst (select_handler d h fn rd rq fd))) = map ALoad loads ++ AInvoke (cr_kind rq) (copied sz) (if tk then fd else None) :: later /\
    fst (fst (select_handler d h fn rd rq fd)) = fn (cr_kind rq) (copied sz) (if tk then fd else None) /\ snd (select_handler d h fn rd rq fd) = None.
Proof.
  intros U F. destruct (nth_user _ _ U) as [N1 N2]. apply fits_iff in F as [F1 F2].
  assert (T : FirstUserFunction <=? cr_kind rq = true) by (destruct U as (k & -> & _); apply Z.leb_le; unfold FirstUserFunction; lia).
  unfold select_handler. rewrite N1, N2. unfold invoke. rewrite F1, F2. cbn [negb]. rewrite memcpy_out_eq. cbn [Nat.add].
  exists (if tk then [] else close_opt fd). destruct tk; (split; [reflexivity|]); cbn [fst snd].
  - rewrite entered_loads. cbn [entered]. rewrite T. split; [reflexivity|]. eexists. split; [reflexivity|]. split; reflexivity.
  - rewrite entered_loads. cbn [entered app]. rewrite T. split; [reflexivity|]. eexists. split; [reflexivity|]. split; reflexivity.
Qed.
Lemma user_misfit sz tk : for_user sz tk -> ~ fits shm size hdr rq sz ->
  select_handler d h fn rd rq fd = (no_result, close_opt fd, None).
Proof.
  intros U F. destruct (nth_user _ _ U) as [N1 N2]. unfold select_handler. rewrite N1, N2. unfold invoke.
  destruct (cr_size rq =? sz) eqn:E1; [|reflexivity]. destruct (contains h (cr_data rq) (cr_size rq)) eqn:E2; [|reflexivity].
  exfalso. apply F, fits_iff. auto.
Qed.
Lemma not_user : (forall sz tk, ~ for_user sz tk) ->
  select_handler d h fn rd rq fd = select_handler (new_dispatcher tuple_size) h fn rd rq fd /\
  entered (snd (fst (select_handler d h fn rd rq fd))) = None.
Proof.
  intros U. rewrite new_dispatcher_eq. unfold select_handler. rewrite D. cbn [d_handlers]. unfold numbering.
  set (B := [SFn 0 (tuple_size 0) false; _; _; _; _; _; _]). rewrite !app_length, slots_length. change (length B) with 7%nat. cbn [length].
  destruct Wd as ((W1 & _) & _).
  destruct (Z.ltb_spec (cr_kind rq) 7) as [L7|G7].
  - assert (X1 : cr_kind rq <? Z.of_nat (7 + length l) = true) by (apply Z.ltb_lt; lia). assert (X2 : cr_kind rq <? Z.of_nat (7 + 0) = true) by (apply Z.ltb_lt; lia).
    rewrite X1, X2. rewrite !nth_error_app1 by (change (length B) with 7%nat; lia).
    assert (C : exists sz tk, nth_error B (Z.to_nat (cr_kind rq)) = Some (SFn (cr_kind rq) sz tk)).
    { assert (cr_kind rq = 0 \/ cr_kind rq = 1 \/ cr_kind rq = 2 \/ cr_kind rq = 3 \/ cr_kind rq = 4 \/ cr_kind rq = 5 \/ cr_kind rq = 6) as C by lia.
      destruct C as [-> |[-> |[-> |[-> |[-> |[-> | ->]]]]]]; eexists; eexists; reflexivity. }
    destruct C as (sz & tk & ->). destruct (invoke h fn rd (SFn (cr_kind rq) sz tk) rq fd) as [r a] eqn:I. split; [reflexivity|]. cbn [fst snd].
    assert (T : FirstUserFunction <=? cr_kind rq = false) by (apply Z.leb_gt; unfold FirstUserFunction; lia).
    unfold invoke in I. destruct (negb (cr_size rq =? sz)); [injection I as _ <-; apply entered_close|].
    destruct (negb (contains h (cr_data rq) (cr_size rq))); [injection I as _ <-; apply entered_close|].
    destruct (memcpy_out rd 0 (cr_data rq) (Z.to_nat sz)) as [[bytes n] tr]. destruct tk; injection I as _ <-; rewrite entered_loads; cbn [app entered]; rewrite T; [reflexivity|apply entered_close].
  - assert (Out : Z.of_nat (7 + length l) <= cr_kind rq).
    { destruct (Z.lt_ge_cases (cr_kind rq) (Z.of_nat (7 + length l))) as [Lt|Ge]; [|exact Ge]. exfalso.
      assert (Z.to_nat (cr_kind rq - 7) < length l)%nat as Hk by lia. apply nth_error_Some in Hk. destruct (nth_error l (Z.to_nat (cr_kind rq - 7))) as [[sz tk]|] eqn:E; [|congruence].
      apply (U sz tk). exists (Z.to_nat (cr_kind rq - 7)). split; [lia|exact E]. }
    assert (X1 : cr_kind rq <? Z.of_nat (7 + length l) = false) by (apply Z.ltb_ge; lia). assert (X2 : cr_kind rq <? Z.of_nat (7 + 0) = false) by (apply Z.ltb_ge; lia).
    rewrite X1, X2. split; reflexivity.
Qed.
Lemma for_user_dec : (exists sz tk, for_user sz tk) \/ forall sz tk, ~ for_user sz tk.
Proof.
  destruct (Z.lt_ge_cases (cr_kind rq) 7) as [L7|G7]; [right; intros sz tk (k & E & _); lia|].
  destruct (nth_error l (Z.to_nat (cr_kind rq - 7))) as [[sz tk]|] eqn:E.
  - left. exists sz, tk, (Z.to_nat (cr_kind rq - 7)). split; [lia|exact E].
  - right. intros sz tk (k & Ek & N). replace (Z.to_nat (cr_kind rq - 7)) with k in E by lia. congruence.
Qed.
Lemma fits_dec sz : fits shm size hdr rq sz \/ ~ fits shm size hdr rq sz.
Proof.
  rewrite fits_iff. destruct (cr_size rq =? sz), (contains h (cr_data rq) (cr_size rq)); intuition discriminate.
Qed.
End SELECT.

(** ** What was seen so far *)
Lemma handled_app a b : handled (a ++ b) = handled a ++ handled b.
Proof. apply flat_map_app. Qed.
Lemma network_app i a b : network i (a ++ b) = network i a ++ network i b.
Proof. apply flat_map_app. Qed.
Lemma registered_app i a b : registered i (a ++ b) = registered i a ++ registered i b.
Proof. apply flat_map_app. Qed.
Lemma in_progress_snoc i es e : in_progress i (es ++ [e]) = stacked i (in_progress i es) e.
Proof. unfold in_progress. rewrite fold_left_app. reflexivity. Qed.
Lemma stacked_other i j c x : j <> i -> stacked j c (i, x) = c.
Proof. intros D. unfold stacked. cbn [fst]. destruct (Nat.eqb_spec i j); [congruence|reflexivity]. Qed.

Definition opt_id (o : option nat) : list nat := match o with Some v => [v] | None => [] end.
Definition kepts (c : list (option nat * bool)) : list nat := flat_map (fun x => opt_id (fst x)) c.
Definition waiting (es : uhistory) (v : nat) : Prop := exists i, In v (kepts (in_progress i es)).

Definition stands (b : host) (p : pending) (c : option nat * bool) : Prop :=
  p_sends p = snd c /\ match fst c with Some v => exists f, p_later p = [AClose f] /\ 0 <= f /\ lookup f (table b) = Some v | None => p_later p = [] end.

Lemma stands_keep b b' ps cs : Forall2 (stands b) ps cs -> (forall f v, In v (kepts cs) -> lookup f (table b) = Some v -> lookup f (table b') = Some v) ->
  Forall2 (stands b') ps cs.
Proof.
  induction 1 as [|p [kept sn] ps cs [S1 S2] F IH]; intros K; constructor.
  - split; [exact S1|]. cbn [fst] in *. destruct kept as [v|]; [|exact S2]. destruct S2 as (f & E & P & L). exists f. split; [exact E|]. split; [exact P|].
    apply K; [left; reflexivity|exact L].
  - apply IH. intros f v I1. apply K. cbn [kepts flat_map]. apply in_or_app. right. exact I1.
Qed.

Section INV.
Variables (debug : bool) (shm size hdr : nat -> Z).
Hypothesis M : forall i, mapping_ok (shm i) (size i) (hdr i).
Local Notation heaps := (fun i => library_heap (shm i) (size i) (hdr i)).
Local Notation linv := (linv debug).
Local Notation core := (core debug).

Record uinv (es : uhistory) (w : user) (ges : history) : Prop := {
  u_core : core (handled es) (waiting es) ges (base w);
  u_sets : forall i, settings (only i ges) = network i es;
  u_disp : forall i, disps w i = Disp (numbering tuple_size (slots (registered i es))) (Z.of_nat (length (numbering tuple_size (slots (registered i es)))));
  u_calls : forall i, Forall2 (stands (base w)) (running w i) (in_progress i es);
  u_once : forall i, NoDup (kepts (in_progress i es));
  u_apart : forall i j v, In v (kepts (in_progress i es)) -> In v (kepts (in_progress j es)) -> i = j;
  u_there : forall i, in_progress i es <> [] -> trees (base w) i <> None }.

Lemma uinv_0 : uinv [] new_user [].
Proof.
  constructor; try (intros; reflexivity).
  - eapply core_less; [apply core_0|]. intros v (i & []).
  - intros i. constructor.
  - intros i. constructor.
  - intros i j v [].
  - intros i X. destruct (X eq_refl).
Qed.

(** An event that neither calls nor ends a handler. *)
Lemma calls_same es w ges i x w' ges' : uinv es w ges ->
  core (handled (es ++ [(i, x)])) (waiting es) ges' (base w') ->
  (forall j, settings (only j ges') = network j (es ++ [(i, x)])) ->
  (forall j, disps w' j = Disp (numbering tuple_size (slots (registered j (es ++ [(i, x)])))) (Z.of_nat (length (numbering tuple_size (slots (registered j (es ++ [(i, x)]))))))) ->
  running w' = running w -> (forall c, stacked i c (i, x) = c) ->
  (forall f v, waiting es v -> lookup f (table (base w)) = Some v -> lookup f (table (base w')) = Some v) ->
  (forall j, in_progress j es <> [] -> trees (base w') j <> None) ->
  uinv (es ++ [(i, x)]) w' ges'.
Proof.
  intros V C St Di Ru Sk Lk Tr.
  assert (Ip : forall j, in_progress j (es ++ [(i, x)]) = in_progress j es).
  { intros j. rewrite in_progress_snoc. destruct (Nat.eq_dec j i) as [-> |D]; [apply Sk|apply stacked_other, D]. }
  constructor; auto.
  - eapply core_less; [exact C|]. intros v (j & I1). exists j. rewrite <- Ip. exact I1.
  - intros j. rewrite Ru, Ip. eapply stands_keep; [exact (u_calls _ _ _ V j)|]. intros f v I1. apply Lk. exists j. exact I1.
  - intros j. rewrite Ip. exact (u_once _ _ _ V j).
  - intros j k v. rewrite !Ip. exact (u_apart _ _ _ V j k v).
  - intros j. rewrite Ip. exact (Tr j).
Qed.

Lemma only_settings_one j i (x : gop * gresult) ges : settings (only j (ges ++ [(i, x)])) = settings (only j ges) ++ (if Nat.eqb i j then settings [x] else []).
Proof.
  destruct (Nat.eqb_spec i j) as [-> |D].
  - rewrite only_same. unfold settings. apply flat_map_app.
  - rewrite only_other by exact D. symmetry. apply app_nil_r.
Qed.

(** The program itself. *)
Lemma uinv_do es w ges i o s' r : uinv es w ges -> uallowed es w i (UDo o) -> step debug o (own (lib (base w) i)) = (s', r) ->
  r <> Aborted /\ (forall j p tail u, j <> i -> (finds (host_step (base w) i s') j p tail u <-> finds (base w) j p tail u)) /\
  exists ges', uinv (es ++ [(i, (UDo o, UDid r))]) (User (host_step (base w) i s') (disps w) (running w)) ges'.
Proof.
  intros V [Al Id] E. destruct (core_host debug _ _ _ _ i o s' r (u_core _ _ _ V) Al E) as (C & Na & _ & Num & _ & Ot & _).
  split; [exact Na|]. split; [exact Ot|]. exists (ges ++ [(i, (Host o, Did r))]). apply calls_same with (w := w) (ges := ges); auto.
  - rewrite handled_app. exact C.
  - intros j. rewrite only_settings_one, (u_sets _ _ _ V), network_app. cbn. destruct (i =? j)%nat; reflexivity.
  - intros j. rewrite registered_app. cbn. rewrite app_nil_r. exact (u_disp _ _ _ V j).
  - intros c. unfold stacked. cbn. rewrite Nat.eqb_refl. reflexivity.
  - intros f v Wv Lf. cbn [base]. apply (Num f v Lf). apply (c_kept _ _ _ _ _ C v Wv).
  - intros j Ip. pose proof (u_there _ _ _ V j Ip) as T. cbn [base host_step after trees own]. unfold upd. destruct (Nat.eqb_spec j i) as [-> |]; [|exact T].
    change (trees (base w) i) with (tree (own (lib (base w) i))) in T. destruct o as [n|p f who|u|]; cbn [step] in E.
    + injection E as <- _. exact T.
    + cbn [lib own tree kern closes next] in E, T. destruct (trees (base w) i) as [t|] eqn:Et; [|congruence]. assert (T' : tree (own (lib (base w) i)) <> None) by (cbn [lib own tree]; congruence). clear T. rename T' into T. destruct (own_handle _ _ _) as [[[ok t'] dead]| | | |]; try (injection E as <- _; cbn [tree]; congruence).
      destruct (destroy _ _ _ _) as [[k c]|]; injection E as <- _; [discriminate|]. cbn [tree]. congruence.
    + destruct (destroy _ _ _ _) as [[k c]|]; injection E as <- _; exact T.
    + congruence.
Qed.

(** A network setting; a registration. *)
Lemma uinv_set es w ges i no p : uinv es w ges ->
  exists ges', uinv (es ++ [(i, (USet no p, UNoted))]) (User (after (base w) i (Gate (own (lib (base w) i)) (set_policy (net (lib (base w) i)) no p))) (disps w) (running w)) ges'.
Proof.
  intros V. exists (ges ++ [(i, (Setting no p, Noted))]). pose proof (u_core _ _ _ V) as C. apply calls_same with (w := w) (ges := ges); auto.
  - rewrite handled_app. cbn [handled flat_map snd app]. rewrite app_nil_r.
    constructor; try rewrite prog_set.
    + exact (linv_set debug ges (base w) i no p (c_linv _ _ _ _ _ C)).
    + apply C.
    + apply C.
    + apply C.
    + apply C.
  - intros j. rewrite only_settings_one, (u_sets _ _ _ V), network_app. cbn. destruct (i =? j)%nat; rewrite ?app_nil_r; reflexivity.
  - intros j. rewrite registered_app. cbn. rewrite app_nil_r. exact (u_disp _ _ _ V j).
  - intros c. unfold stacked. cbn. rewrite Nat.eqb_refl. reflexivity.
  - intros j Ip. pose proof (u_there _ _ _ V j Ip) as T. cbn [base after trees own lib tree]. unfold upd. destruct (Nat.eqb_spec j i) as [-> |]; exact T.
Qed.
Lemma uinv_register es w ges i sz tk : uinv es w ges ->
  let d := disps w i in let n := 7 + Z.of_nat (length (registered i es)) in
  register_callback d (SFn (d_next d) sz tk) = (n, Disp (numbering tuple_size (slots (registered i es ++ [(sz, tk)]))) (n + 1)) /\
  uinv (es ++ [(i, (URegister sz tk, UNumber n))]) (User (base w) (upd (disps w) i (Disp (numbering tuple_size (slots (registered i es ++ [(sz, tk)]))) (n + 1))) (running w)) ges.
Proof.
  intros V d n. pose proof (u_core _ _ _ V) as C.
  assert (Ln : Z.of_nat (length (numbering tuple_size (slots (registered i es)))) = n).
  { unfold numbering. rewrite app_length, slots_length. unfold n. cbn [length]. lia. }
  assert (Sn : numbering tuple_size (slots (registered i es ++ [(sz, tk)])) = numbering tuple_size (slots (registered i es)) ++ [SFn n sz tk]).
  { rewrite slots_snoc. unfold numbering. rewrite <- app_assoc. reflexivity. }
  assert (Lm : Z.of_nat (length (numbering tuple_size (slots (registered i es ++ [(sz, tk)])))) = n + 1).
  { rewrite Sn, app_length. cbn [length]. lia. }
  split.
  - unfold d. rewrite (u_disp _ _ _ V i). cbn [d_next]. rewrite register_callback_eq, Ln. rewrite <- Sn, Lm. reflexivity.
  - apply calls_same with (w := w) (ges := ges); auto.
    + rewrite handled_app. cbn [handled flat_map snd app]. rewrite app_nil_r. exact C.
    + intros j. rewrite network_app. cbn. rewrite app_nil_r. apply (u_sets _ _ _ V).
    + intros j. rewrite registered_app. cbn [registered flat_map snd fst app disps]. unfold upd. destruct (Nat.eqb_spec j i) as [-> |D].
      * rewrite Nat.eqb_refl. cbn [app]. rewrite Lm. reflexivity.
      * destruct (Nat.eqb_spec i j); [congruence|]. cbn [app]. rewrite app_nil_r. exact (u_disp _ _ _ V j).
    + intros c. unfold stacked. cbn. rewrite Nat.eqb_refl. reflexivity.
    + exact (u_there _ _ _ V).
Qed.

(** A request that is not for the program. *)
Lemma uinv_serve es w ges i q w' r : uinv es w ges -> uallowed es w i (USays q) -> ustep debug heaps i (USays q) w = (w', r) ->
  (forall rq fd, q_msg q = Some (rq, fd) -> forall sz tk, ~ asks_for i es rq sz tk) ->
  exists g', gstep debug (heaps i) (Serve q) (lib (base w) i) = (g', match r with UServed evs => Served evs | _ => Broke end) /\
  net g' = net (lib (base w) i) /\
  exists evs, r = UServed evs /\ w' = User (after (base w) i g') (disps w) (running w) /\
    fine_run debug (network i es) (own (lib (base w) i)) q evs (own g') /\
    exists ges', uinv (es ++ [(i, (USays q, UServed evs))]) w' ges'.
Proof.
  intros V Al E Nu. pose proof (u_core _ _ _ V) as C. pose proof (c_linv _ _ _ _ _ C) as L. cbn [uallowed] in Al.
  assert (G : exists g' ro, gstep debug (heaps i) (Serve q) (lib (base w) i) = (g', ro) /\
     (w', r) = match ro with Served evs => (User (after (base w) i g') (disps w) (running w), UServed evs) | _ => (w, UBroke) end).
  { cbn [ustep] in E. cbn [gstep]. destruct (tree (own (lib (base w) i))) as [t|] eqn:Et; [|destruct Al as (T & _); congruence]. cbv zeta in E.
    set (fn := builtin_result (q_kernel q) t (net (lib (base w) i)) (heaps i) (q_mem1 q) (q_mem2 q) (q_hints q) (q_resolver q) (q_alloc q)) in *.
    assert (X : match q_msg q with Some (rq, fd) => entered (snd (fst (select_handler (disps w i) (heaps i) fn (q_args q) rq fd))) | None => None end = None /\
      DispatchModel.handle (disps w i) (heaps i) fn (q_args q) (q_msg q) (q_sends q) = DispatchModel.handle (new_dispatcher tuple_size) (heaps i) fn (q_args q) (q_msg q) (q_sends q)).
    { destruct (q_msg q) as [[rq fd]|] eqn:Qm; [|split; reflexivity]. destruct Al as (_ & Wd & _). specialize (Wd _ _ Qm).
      assert (D : d_handlers (disps w i) = numbering tuple_size (slots (registered i es))) by (rewrite (u_disp _ _ _ V i); reflexivity).
      destruct (not_user (shm i) (size i) (hdr i) _ _ D fn (q_args q) rq fd Wd (Nu rq fd eq_refl)) as [X1 X2].
      split; [exact X2|]. cbn [DispatchModel.handle]. rewrite X1. reflexivity. }
    destruct X as [X1 X2]. rewrite X1, X2 in E.
    destruct (act _ _ _ _ _ _ _ _) as [[s es1]| | | |]; injection E as <- <-; eexists; eexists; (split; [reflexivity|]); reflexivity. }
  destruct G as (g' & ro & G & W).
  assert (Al' : gallowed (all ges) (lib (base w) i) (Serve q)) by exact Al.
  destruct (serve_step _ _ _ _ M _ _ _ _ _ _ L Al' G) as (N & evs & -> & FR). rewrite (u_sets _ _ _ V) in FR.
  injection W as -> ->. exists g'. split; [exact G|]. split; [exact N|]. exists evs. split; [reflexivity|]. split; [reflexivity|]. split; [exact FR|].
  rewrite <- (u_sets _ _ _ V) in FR. destruct (linv_serve _ _ _ _ _ _ _ L N FR) as [L' Fi]. exists (ges ++ [(i, (Serve q, Served evs))]).
  apply calls_same with (w := w) (ges := ges); auto.
  - rewrite handled_app. cbn [handled flat_map snd app]. rewrite app_nil_r. constructor; try rewrite prog_serve; try apply C. exact L'.
  - intros j. rewrite only_settings_one, (u_sets _ _ _ V), network_app. cbn. destruct (i =? j)%nat; reflexivity.
  - intros j. rewrite registered_app. cbn. rewrite app_nil_r. exact (u_disp _ _ _ V j).
  - intros c. unfold stacked. cbn. rewrite Nat.eqb_refl. reflexivity.
  - intros f v Wv Lf. cbn [base after table]. destruct (fr_table _ _ _ _ _ _ FR) as [-> |(x & u & -> & _)]; rewrite ?lookup_app; change (kern (own (lib (base w) i))) with (table (base w)); rewrite Lf; reflexivity.
  - intros j Ip. pose proof (u_there _ _ _ V j Ip) as T. cbn [base after trees]. unfold upd. destruct (Nat.eqb_spec j i) as [-> |]; [|exact T].
    rewrite (fr_tree _ _ _ _ _ _ FR). exact T.
Qed.

(** A request for a handler of the program. *)
Definition comes (w : user) (i : nat) (q : request) : option nat := received (own (lib (base w) i)) q.

Lemma says_receive es w ges i q rq fd : uinv es w ges -> uallowed es w i (USays q) -> q_msg q = Some (rq, fd) ->
  let b' := after (base w) i (Gate (receive q (own (lib (base w) i))) (net (lib (base w) i))) in
  exists ges', core (handled es) (waiting es) ges' b' /\
    (forall j, settings (only j ges') = network j es) /\
    (forall j, policies b' j = policies (base w) j /\ trees b' j = trees (base w) j) /\
    (forall n u, lookup n (table (base w)) = Some u -> lookup n (table b') = Some u) /\
    (forall j p tail u, finds b' j p tail u <-> finds (base w) j p tail u) /\
    (forall u, closings b' u = closings (base w) u) /\
    (forall f, fd = Some f -> exists v, comes w i q = Some v /\ 0 <= f /\ lookup f (table b') = Some v /\ (fresh (base w) <= v)%nat /\
       In (Open f, Opened v) (prog ges') /\ holds (prog ges') v /\ ~ opened (handled es) v /\ ~ waiting es v) /\
    (fd = None -> comes w i q = None).
Proof.
  intros V (Tn & Wd & Nd & Ar & _) Qm b'. pose proof (u_core _ _ _ V) as C.
  destruct (core_arrive debug _ _ _ _ i (arriving q) C Nd Ar) as (C' & Fi & Cl).
  set (ges' := ges ++ arrivals i (arriving q) (fresh (base w))) in *. exists ges'.
  assert (Es : receive q (own (lib (base w) i)) = St (trees (base w) i) (table (base w) ++ pairs (arriving q) (fresh (base w))) (fresh (base w) + length (arriving q)) (closed (base w))) by apply receive_is.
  assert (Sm : forall j, lib b' j = lib (with_more (base w) (arriving q)) j).
  { intros j. unfold b'. rewrite Es. unfold lib, with_more, after. cbn. unfold upd. destruct (Nat.eqb_spec j i) as [-> |]; reflexivity. }
  assert (Tb : table b' = table (base w) ++ pairs (arriving q) (fresh (base w))) by exact (f_equal (fun g => kern (own g)) (Sm 0%nat)).
  split; [eapply core_same; [exact C'|exact Sm]|]. split.
  { intros j. unfold ges'. rewrite only_app. unfold settings at 1. rewrite flat_map_app. fold (settings (only j ges)). rewrite (u_sets _ _ _ V).
    fold (settings (only j (arrivals i (arriving q) (fresh (base w))))). rewrite settings_arrivals. apply app_nil_r. }
  split; [intros j; split; [exact (f_equal net (Sm j))|exact (f_equal (fun g => tree (own g)) (Sm j))]|].
  split; [intros n u Ln; rewrite Tb, lookup_app, Ln; reflexivity|].
  split.
  { intros j p tail u. rewrite <- Fi. unfold finds. rewrite Tb. rewrite (f_equal (fun g => tree (own g)) (Sm j) : trees b' j = trees (base w) j). reflexivity. }
  split.
  { intros u. unfold closings. rewrite Sm. reflexivity. }
  unfold comes, received. rewrite Qm. change (next (own (lib (base w) i))) with (fresh (base w)). split; [|intros ->; reflexivity].
  intros f ->. set (v := (fresh (base w) + length (q_lost q))%nat). exists v. split; [reflexivity|].
  assert (Ia : arriving q = q_lost q ++ [f]) by (unfold arriving; rewrite Qm; reflexivity).
  assert (Ip : In (f, v) (pairs (arriving q) (fresh (base w)))).
  { rewrite Ia, pairs_app. apply in_or_app. right. left. reflexivity. }
  destruct (Ar f) as [P Lf]; [rewrite Ia; apply in_or_app; right; left; reflexivity|]. split; [exact P|]. split.
  { pose proof (linv_same debug _ _ _ (c_linv _ _ _ _ _ C') Sm) as L'. destruct (table_nodup debug _ _ L') as (N1 & _). apply (lookup_in _ _ _ N1). rewrite Tb. apply in_or_app. right. exact Ip. }
  split; [unfold v; lia|]. exact (Cl f v Ip).
Qed.

(** A handler is called. *)
Lemma uinv_enter es w ges i q rq fd sz tk w' r : uinv es w ges -> uallowed es w i (USays q) -> q_msg q = Some (rq, fd) -> asks_for i es rq sz tk ->
  fits (shm i) (size i) (hdr i) rq sz -> ustep debug heaps i (USays q) w = (w', r) ->
  r = UEntered (cr_kind rq) (map (fun k => q_args q k (cr_data rq + Z.of_nat k)) (seq 0 (Z.to_nat sz))) (if tk then comes w i q else None) (if tk then None else comes w i q) /\
  (forall j, policies (base w') j = policies (base w) j) /\ (forall j p tail u, finds (base w') j p tail u <-> finds (base w) j p tail u) /\
  (forall j, trees (base w') j = trees (base w) j) /\ (forall u, closings (base w') u = closings (base w) u) /\
  exists ges', uinv (es ++ [(i, (USays q, r))]) w' ges'.
Proof.
  intros V Al Qm U F E. destruct (says_receive es w ges i q rq fd V Al Qm) as (ges' & C & St & Pt & Lk & Fi & Clo & Got & Non).
  pose proof Al as (Tn & Wd & _). specialize (Wd _ _ Qm). change (trees (base w) i <> None) in Tn.
  cbn [ustep] in E. change (tree (own (lib (base w) i))) with (trees (base w) i) in E. destruct (trees (base w) i) as [t|] eqn:Et; [|congruence]. rewrite <- Et in Tn. cbv zeta in E. rewrite Qm in E.
  set (b' := after (base w) i (Gate (receive q (own (lib (base w) i))) (net (lib (base w) i)))) in *.
  assert (Kb : kern (receive q (own (lib (base w) i))) = table b') by reflexivity.
  set (fn := builtin_result _ _ _ _ _ _ _ _ _) in E.
  assert (D : d_handlers (disps w i) = numbering tuple_size (slots (registered i es))) by (rewrite (u_disp _ _ _ V i); reflexivity).
  destruct (user_fits (shm i) (size i) (hdr i) (M i) _ _ D fn (q_args q) rq fd Wd sz tk U F) as (later & Lt & En & _). rewrite En in E. rewrite Kb in E.
  assert (R : r = UEntered (cr_kind rq) (copied (q_args q) rq sz) (if tk then comes w i q else None) (if tk then None else comes w i q) /\
     w' = User b' (disps w) (upd (running w) i (Pending later (q_sends q) :: running w i)) /\
     stands b' (Pending later (q_sends q)) (if tk then None else comes w i q, q_sends q)).
  { injection E as <- <-. destruct fd as [f|].
    - destruct (Got f eq_refl) as (v & Ev & P & Lf & _). destruct tk; subst later; cbn [refers first_closed close_opt];
        repeat match goal with |- context [kern (receive q ?s)] => change (kern (receive q s)) with (table b') end; rewrite ?Lf, ?Ev; (split; [reflexivity|]); (split; [reflexivity|]); (split; [reflexivity|]); cbn [fst p_later]; [reflexivity|]. exists f. auto.
    - rewrite (Non eq_refl). destruct tk; subst later; (split; [reflexivity|]); (split; [reflexivity|]); (split; [reflexivity|]); reflexivity. }
  clear E. destruct R as (-> & -> & Sd). cbn [base]. split; [reflexivity|]. split; [intros j; apply Pt|]. split; [exact Fi|]. split; [intros j; apply Pt|]. split; [exact Clo|].
  exists ges'. set (x := (USays q, UEntered _ _ _ _)).
  assert (Ii : in_progress i (es ++ [(i, x)]) = (if tk then None else comes w i q, q_sends q) :: in_progress i es).
  { rewrite in_progress_snoc. unfold stacked. cbn [fst]. rewrite Nat.eqb_refl. reflexivity. }
  assert (Io : forall j, j <> i -> in_progress j (es ++ [(i, x)]) = in_progress j es) by (intros j Dj; rewrite in_progress_snoc; apply stacked_other, Dj).
  assert (New : forall v, (if tk then None else comes w i q) = Some v -> holds (prog ges') v /\ ~ opened (handled es) v /\ ~ waiting es v).
  { intros v Ev. destruct tk; [discriminate|]. destruct fd as [f|]; [|rewrite (Non eq_refl) in Ev; discriminate].
    destruct (Got f eq_refl) as (v' & Ev' & _ & _ & _ & _ & G). rewrite Ev in Ev'. injection Ev' as <-. exact G. }
  constructor.
  - rewrite handled_app. cbn [base].
    assert (X : core (handled es ++ handled [(i, x)]) (waiting es) ges' b').
    { cbn [handled flat_map snd x]. destruct tk; [|rewrite app_nil_r; exact C]. destruct fd as [f|].
      - destruct (Got f eq_refl) as (v & Ev & _ & _ & _ & G1 & G2 & G3 & G4). rewrite Ev, Qm. apply core_give; auto.
      - rewrite (Non eq_refl). rewrite app_nil_r. exact C. }
    destruct (if tk then None else comes w i q) as [v|] eqn:Ek.
    + destruct (New v eq_refl) as (H1 & H2 & H3). eapply core_less; [apply (core_keep debug _ _ _ _ v X H1)|].
      * destruct tk; [discriminate|]. cbn [handled flat_map snd x]. rewrite app_nil_r. exact H2.
      * intros u (j & I1). destruct (Nat.eq_dec j i) as [-> |Dj].
        -- rewrite Ii in I1. cbn [kepts flat_map fst opt_id app] in I1. destruct I1 as [<- |I1]; [auto|]. right. exists i. exact I1.
        -- rewrite Io in I1 by exact Dj. right. exists j. exact I1.
    + eapply core_less; [exact X|]. intros u (j & I1). exists j. destruct (Nat.eq_dec j i) as [-> |Dj]; [rewrite Ii in I1; exact I1|rewrite Io in I1 by exact Dj; exact I1].
  - intros j. rewrite network_app. cbn. rewrite app_nil_r. apply St.
  - intros j. rewrite registered_app. cbn. rewrite app_nil_r. exact (u_disp _ _ _ V j).
  - assert (Old : forall j, Forall2 (stands b') (running w j) (in_progress j es)).
    { intros j. eapply stands_keep; [exact (u_calls _ _ _ V j)|]. intros f v _. apply Lk. }
    intros j. cbn [base running]. unfold upd. destruct (Nat.eqb_spec j i) as [-> |Dj]; [rewrite Ii; constructor; [exact Sd|apply Old]|rewrite Io by exact Dj; apply Old].
  - intros j. destruct (Nat.eq_dec j i) as [-> |Dj]; [|rewrite Io by exact Dj; apply (u_once _ _ _ V)]. rewrite Ii. cbn [kepts flat_map fst].
    destruct (if tk then None else comes w i q) as [v|] eqn:Ek; cbn [opt_id app]; [|apply (u_once _ _ _ V)]. constructor; [|apply (u_once _ _ _ V)].
    destruct (New v eq_refl) as (_ & _ & N). intros I1. apply N. exists i. exact I1.
  - assert (G : forall j v, In v (kepts (in_progress j (es ++ [(i, x)]))) -> In v (kepts (in_progress j es)) \/ j = i /\ ~ waiting es v).
    { intros j v. destruct (Nat.eq_dec j i) as [-> |Dj]; [|rewrite Io by exact Dj; auto]. rewrite Ii. cbn [kepts flat_map fst]. intros I1. apply in_app_or in I1 as [I1|I1]; [|auto].
      destruct (if tk then None else comes w i q) as [v'|] eqn:Ek; [|destruct I1]. destruct I1 as [<- |[]]. right. split; [reflexivity|]. apply New. reflexivity. }
    intros j k v I1 I2. destruct (G j v I1) as [A|[-> A]], (G k v I2) as [B|[-> B]].
    + exact (u_apart _ _ _ V j k v A B).
    + destruct B. exists j. exact A.
    + destruct A. exists k. exact B.
    + reflexivity.
  - intros j. cbn [base]. rewrite (proj2 (Pt j)). destruct (Nat.eq_dec j i) as [-> |Dj]; [intros _; exact Tn|]. rewrite Io by exact Dj. apply (u_there _ _ _ V).
Qed.

(** Such a request that does not fit. *)
Lemma uinv_misfit es w ges i q rq fd sz tk w' r : uinv es w ges -> uallowed es w i (USays q) -> q_msg q = Some (rq, fd) -> asks_for i es rq sz tk ->
  ~ fits (shm i) (size i) (hdr i) rq sz -> ustep debug heaps i (USays q) w = (w', r) ->
  (exists f, r = UServed (shutting f (comes w i q) ++ [answer (q_sends q) (-38) None])) /\
  (forall j, policies (base w') j = policies (base w) j) /\ (forall j p tail u, finds (base w') j p tail u <-> finds (base w) j p tail u) /\
  (forall j, trees (base w') j = trees (base w) j) /\
  (forall v, comes w i q = Some v -> closings (base w') v = 1%nat) /\ (forall u, comes w i q <> Some u -> closings (base w') u = closings (base w) u) /\
  exists ges', uinv (es ++ [(i, (USays q, r))]) w' ges'.
Proof.
  intros V Al Qm U F E. destruct (says_receive es w ges i q rq fd V Al Qm) as (ges' & C & St & Pt & Lk & Fi & Clo & Got & Non).
  pose proof Al as (Tn & Wd & _). specialize (Wd _ _ Qm). change (trees (base w) i <> None) in Tn.
  cbn [ustep] in E. change (tree (own (lib (base w) i))) with (trees (base w) i) in E. destruct (trees (base w) i) as [t|] eqn:Et; [|congruence]. rewrite <- Et in Tn. cbv zeta in E. rewrite Qm in E.
  set (s1 := receive q (own (lib (base w) i))) in *.
  set (b' := after (base w) i (Gate s1 (net (lib (base w) i)))) in *.
  set (fn := builtin_result _ _ _ _ _ _ _ _ _) in E.
  assert (D : d_handlers (disps w i) = numbering tuple_size (slots (registered i es))) by (rewrite (u_disp _ _ _ V i); reflexivity).
  cbn [DispatchModel.handle] in E. rewrite (user_misfit (shm i) (size i) (hdr i) (M i) _ _ D fn (q_args q) rq fd Wd sz tk U F) in E. cbn [fst snd] in E. rewrite entered_close in E.
  cbn [no_result r_int r_fd close_opt app] in E.
  assert (Nw : forall j, network j (es ++ [(i, (USays q, r))]) = network j es) by (intros j; rewrite network_app; cbn; apply app_nil_r).
  assert (Rg : forall j, registered j (es ++ [(i, (USays q, r))]) = registered j es) by (intros j; rewrite registered_app; cbn; apply app_nil_r).
  destruct fd as [f|].
  - destruct (Got f eq_refl) as (v & Ev & P & Lf & _ & G1 & G2 & G3 & G4).
    change (table b') with (kern s1) in Lf. cbn [close_opt app] in E. rewrite (act_close debug _ _ _ _ _ f v _ _ P Lf) in E.
    rewrite <- (app_nil_r (if q_sends q then _ else _)), <- ?app_assoc in E. cbn [app] in E. rewrite act_answer in E. cbn [act obind option_map] in E. injection E as <- <-.
    destruct (core_shut debug _ _ _ _ i f v C Lf G2 G3 G4) as (C2 & Fr2 & Num & Cl1 & Cl2 & Fi2 & Keep).
    set (b2 := host_step b' i (shut f v (own (lib b' i)))) in *.
    set (b3 := after (base w) i (Gate (shut f v s1) (net (lib (base w) i)))).
    assert (S3 : forall j, lib b3 j = lib b2 j).
    { intros j. unfold b3, b2, host_step, lib, after, b', after, lib. cbn. unfold upd. destruct (Nat.eqb_spec j i) as [-> |]; rewrite ?Nat.eqb_refl; reflexivity. }
    assert (T3 : forall j, trees b3 j = trees (base w) j).
    { intros j. rewrite <- (proj2 (Pt j)). unfold b3, b', after. cbn. unfold upd. destruct (j =? i)%nat; reflexivity. }
    cbn [base]. fold b3. split; [exists f; rewrite Ev; reflexivity|]. split; [|split; [|split; [exact T3|split; [|split]]]].
    + intros j. rewrite <- (proj1 (Pt j)). unfold b3, b', after. cbn. unfold upd. destruct (j =? i)%nat; reflexivity.
    + intros j p tail u. rewrite <- Fi, <- Fi2. change (finds b3 j p tail u <-> finds b2 j p tail u). unfold finds. rewrite (f_equal (fun g => tree (own g)) (S3 j) : trees b3 j = trees b2 j). reflexivity.
    + intros v' Ev'. rewrite Ev in Ev'. injection Ev' as <-. unfold closings. rewrite S3. exact Cl2.
    + intros u Du. rewrite <- Clo, <- (Cl1 u) by congruence. unfold closings. rewrite S3. reflexivity.
    + exists (ges' ++ [(i, (Host (Close v), Did Done))]). apply calls_same with (w := w) (ges := ges); auto.
      * rewrite handled_app. cbn [handled flat_map snd app]. rewrite app_nil_r. eapply core_same; [exact C2|exact S3].
      * intros j. rewrite Nw, only_settings_one, St. cbn. destruct (i =? j)%nat; apply app_nil_r.
      * intros j. rewrite Rg. exact (u_disp _ _ _ V j).
      * intros c. unfold stacked. cbn. rewrite Nat.eqb_refl. reflexivity.
      * intros g u Wu Lg. cbn [base]. change (table b3) with (table b2). apply Num; [apply Lk, Lg|]. apply (c_kept _ _ _ _ _ C2 u Wu).
      * intros j Ip. cbn [base]. rewrite T3. exact (u_there _ _ _ V j Ip).
  - cbn [close_opt app] in E. rewrite <- (app_nil_r (if q_sends q then _ else _)), <- ?app_assoc in E. cbn [app] in E. rewrite act_answer in E. cbn [act obind option_map] in E. injection E as <- <-.
    cbn [base]. fold b'. rewrite (Non eq_refl). split; [exists 0; reflexivity|]. split; [intros j; apply Pt|]. split; [exact Fi|]. split; [intros j; apply Pt|].
    split; [discriminate|]. split; [intros u _; apply Clo|]. exists ges'. apply calls_same with (w := w) (ges := ges); auto.
    + rewrite handled_app. cbn [handled flat_map snd app]. rewrite app_nil_r. exact C.
    + intros j. rewrite Nw. apply St.
    + intros j. rewrite Rg. exact (u_disp _ _ _ V j).
    + intros c. unfold stacked. cbn. rewrite Nat.eqb_refl. reflexivity.
    + intros j Ip. change (trees b' j <> None). rewrite (proj2 (Pt j)). exact (u_there _ _ _ V j Ip).
Qed.

(** The end of a call: what waited is closed. *)
Lemma calls_pop es w ges i x w' ges' c rest : uinv es w ges -> in_progress i es = c :: rest ->
  stacked i (in_progress i es) (i, x) = rest ->
  core (handled (es ++ [(i, x)])) (waiting (es ++ [(i, x)])) ges' (base w') ->
  (forall j, settings (only j ges') = network j (es ++ [(i, x)])) ->
  (forall j, registered j (es ++ [(i, x)]) = registered j es) -> disps w' = disps w ->
  (exists p ps, running w i = p :: ps /\ running w' = upd (running w) i ps) ->
  (forall f v, waiting (es ++ [(i, x)]) v -> lookup f (table (base w)) = Some v -> lookup f (table (base w')) = Some v) ->
  (forall j, trees (base w') j = trees (base w) j) ->
  uinv (es ++ [(i, x)]) w' ges'.
Proof.
  intros V Ic Sk C St Rg Di (p & ps & Rw & Rw') Lk Tr.
  assert (Ii : in_progress i (es ++ [(i, x)]) = rest) by (rewrite in_progress_snoc; exact Sk).
  assert (Io : forall j, j <> i -> in_progress j (es ++ [(i, x)]) = in_progress j es) by (intros j Dj; rewrite in_progress_snoc; apply stacked_other, Dj).
  assert (Sub : forall j v, In v (kepts (in_progress j (es ++ [(i, x)]))) -> In v (kepts (in_progress j es))).
  { intros j v. destruct (Nat.eq_dec j i) as [-> |Dj]; [|rewrite Io by exact Dj; auto]. rewrite Ii, Ic. cbn [kepts flat_map]. intros I1. apply in_or_app. auto. }
  pose proof (u_calls _ _ _ V i) as F. rewrite Rw, Ic in F. inversion F as [|? ? ? ? _ F']; subst.
  constructor; auto.
  - intros j. rewrite Di, Rg. exact (u_disp _ _ _ V j).
  - intros j. rewrite Rw'. unfold upd. destruct (Nat.eqb_spec j i) as [-> |Dj].
    + rewrite Ii. eapply stands_keep; [exact F'|]. intros f v I1. apply Lk. exists i. rewrite Ii. exact I1.
    + rewrite Io by exact Dj. eapply stands_keep; [exact (u_calls _ _ _ V j)|]. intros f v I1. apply Lk. exists j. rewrite Io by exact Dj. exact I1.
  - intros j. destruct (Nat.eq_dec j i) as [-> |Dj]; [|rewrite Io by exact Dj; apply (u_once _ _ _ V)]. rewrite Ii. pose proof (u_once _ _ _ V i) as N. rewrite Ic in N. cbn [kepts flat_map] in N.
    destruct (fst c); [inversion N; assumption|exact N].
  - intros j k v A B. exact (u_apart _ _ _ V j k v (Sub _ _ A) (Sub _ _ B)).
  - intros j I1. rewrite Tr. apply (u_there _ _ _ V). destruct (Nat.eq_dec j i) as [-> |Dj]; [rewrite Ic; discriminate|]. rewrite Io in I1 by exact Dj. exact I1.
Qed.

(** Closing what waited for the latest call. *)
Lemma pop_kept es w ges i kept sn rest np q l : uinv es w ges -> in_progress i es = (kept, sn) :: rest ->
  let g := lib (base w) i in
  exists p ps, running w i = p :: ps /\ p_sends p = sn /\
  exists ges' f before s1, act debug (heaps i) [] np q [] (p_later p ++ l) (own g) =
      obind (act debug (heaps i) [] np q before l s1) (fun '(s2, es) => Ret (s2, shutting f kept ++ es)) /\
    core (handled es) (fun v => exists j, if Nat.eqb j i then In v (kepts rest) else In v (kepts (in_progress j es))) ges' (after (base w) i (Gate s1 (net g))) /\
    (forall j, settings (only j ges') = network j es) /\ tree s1 = trees (base w) i /\ next s1 = fresh (base w) /\
    (forall n u, lookup n (table (base w)) = Some u -> holds (prog ges') u -> lookup n (kern s1) = Some u) /\
    (forall v, kept = Some v -> closings (after (base w) i (Gate s1 (net g))) v = 1%nat /\ ~ opened (handled es) v) /\
    (forall u, kept <> Some u -> closings (after (base w) i (Gate s1 (net g))) u = closings (base w) u) /\
    (forall j p tail u, finds (after (base w) i (Gate s1 (net g))) j p tail u <-> finds (base w) j p tail u).
Proof.
  intros V Ic g. pose proof (u_calls _ _ _ V i) as F. rewrite Ic in F. inversion F as [|p ? ps ? [S1 S2] F' Rw]; subst. exists p, ps. split; [reflexivity|]. split; [exact S1|].
  pose proof (u_core _ _ _ V) as C. cbn [fst snd] in S1, S2.
  assert (Less : forall v, (exists j, if Nat.eqb j i then In v (kepts rest) else In v (kepts (in_progress j es))) -> waiting es v).
  { intros v (j & X). exists j. revert X. destruct (Nat.eqb_spec j i) as [E|]; [subst j|auto]. intros X. rewrite Ic. cbn [kepts flat_map]. apply in_or_app. auto. }
  assert (Same : forall j, lib (after (base w) i (Gate (own g) (net g))) j = lib (base w) j).
  { intros j. unfold g, lib, after. cbn. unfold upd. destruct (Nat.eqb_spec j i) as [-> |]; reflexivity. }
  destruct kept as [v|].
  - destruct S2 as (f & El & P & Lf).
    assert (Wv : waiting es v) by (exists i; rewrite Ic; left; reflexivity). destruct (c_kept _ _ _ _ _ C v Wv) as [Hv Nv].
    assert (C0 : core (handled es) (fun v => exists j, if Nat.eqb j i then In v (kepts rest) else In v (kepts (in_progress j es))) ges (base w)) by (eapply core_less; [exact C|exact Less]).
    assert (Ns : ~ (exists j, if Nat.eqb j i then In v (kepts rest) else In v (kepts (in_progress j es)))).
    { intros (j & X). revert X. destruct (Nat.eqb_spec j i) as [E|Dj]; [subst j|]; intros X.
      - pose proof (u_once _ _ _ V i) as N. rewrite Ic in N. cbn in N. inversion N. contradiction.
      - apply Dj. apply (u_apart _ _ _ V j i v X). rewrite Ic. left. reflexivity. }
    destruct (core_shut debug _ _ _ _ i f v C0 Lf Hv Nv Ns) as (C2 & Fr2 & Num & Cl1 & Cl2 & Fi2 & Keep).
    exists (ges ++ [(i, (Host (Close v), Did Done))]), f, ([] ++ [KClose f]), (shut f v (own g)).
    split; [rewrite El; cbn [app]; rewrite (act_close debug _ _ _ _ _ f v _ (own g) P Lf); reflexivity|].
    split; [exact C2|]. split.
    { intros j. rewrite only_settings_one, (u_sets _ _ _ V). cbn. destruct (i =? j)%nat; apply app_nil_r. }
    split; [reflexivity|]. split; [reflexivity|]. split; [exact Num|]. split; [intros u E; injection E as <-; split; [exact Cl2|exact Nv]|]. split; [intros u Du; apply Cl1; congruence|exact Fi2].
  - exists ges, 0, [], (own g). rewrite S2. cbn [app shutting]. split; [destruct (act _ _ _ _ _ _ _ _) as [[? ?]| | | |]; reflexivity|].
    split; [eapply core_same; [eapply core_less; [exact C|exact Less]|exact Same]|]. split; [apply (u_sets _ _ _ V)|]. split; [reflexivity|]. split; [reflexivity|]. split; [auto|].
    split; [discriminate|]. split; [intros u _; unfold closings; rewrite Same; reflexivity|]. intros j pp tail u. unfold finds. rewrite (f_equal (fun g => tree (own g)) (Same j) : trees (after (base w) i (Gate (own g) (net g))) j = trees (base w) j). reflexivity.
Qed.

(** A handler throws. *)
Lemma uinv_throw es w ges i kept sn rest w' r : uinv es w ges -> in_progress i es = (kept, sn) :: rest -> ustep debug heaps i UThrow w = (w', r) ->
  (exists f, r = UServed (shutting f kept)) /\
  (forall j, policies (base w') j = policies (base w) j) /\ (forall j p tail u, finds (base w') j p tail u <-> finds (base w) j p tail u) /\
  (forall j, trees (base w') j = trees (base w) j) /\
  (forall v, kept = Some v -> closings (base w') v = 1%nat) /\ (forall u, kept <> Some u -> closings (base w') u = closings (base w) u) /\
  exists ges', uinv (es ++ [(i, (UThrow, r))]) w' ges'.
Proof.
  intros V Ic E. destruct (pop_kept es w ges i kept sn rest (net (lib (base w) i)) (no_request still) [] V Ic) as (p & ps & Rw & Sp & ges' & f & before & s1 & A & C & St & Tr & Fr & Lk & Cl1 & Cl2 & Fi).
  cbn [ustep] in E. rewrite Rw in E. rewrite app_nil_r in A. rewrite A in E. cbn [act obind] in E. rewrite app_nil_r in E. injection E as <- <-. cbn [base].
  split; [exists f; reflexivity|]. split; [intros j; unfold after; cbn; unfold upd; destruct (Nat.eqb_spec j i) as [-> |]; reflexivity|]. split; [exact Fi|].
  assert (Tj : forall j, trees (after (base w) i (Gate s1 (net (lib (base w) i)))) j = trees (base w) j) by (intros j; unfold after; cbn; unfold upd; destruct (Nat.eqb_spec j i) as [-> |]; [exact Tr|reflexivity]).
  split; [exact Tj|]. split; [intros v Ev; apply Cl1, Ev|]. split; [exact Cl2|].
  set (x := (UThrow, UServed (shutting f kept))).
  assert (Ip : forall j, in_progress j (es ++ [(i, x)]) = if Nat.eqb j i then rest else in_progress j es).
  { intros j. rewrite in_progress_snoc. destruct (Nat.eqb_spec j i) as [-> |Dj]; [|apply stacked_other, Dj]. unfold stacked. cbn. rewrite Nat.eqb_refl, Ic. reflexivity. }
  assert (Wt : forall v, waiting (es ++ [(i, x)]) v -> exists j, if Nat.eqb j i then In v (kepts rest) else In v (kepts (in_progress j es))).
  { intros v (j & I1). exists j. rewrite Ip in I1. destruct (Nat.eqb j i); exact I1. }
  exists ges'. eapply (calls_pop es w ges i x); [exact V|exact Ic| | | | |reflexivity| | |exact Tj].
  - unfold stacked. cbn. rewrite Nat.eqb_refl, Ic. reflexivity.
  - rewrite handled_app. cbn [handled flat_map snd x]. rewrite app_nil_r. eapply core_less; [exact C|exact Wt].
  - intros j. rewrite network_app. cbn. rewrite app_nil_r. apply St.
  - intros j. rewrite registered_app. cbn. apply app_nil_r.
  - exists p, ps. split; [exact Rw|reflexivity].
  - intros g v Wv Lg. cbn [base after table own]. apply Lk; [exact Lg|]. apply (c_kept _ _ _ _ _ C v), Wt, Wv.
Qed.

(** A handler returns. *)
Lemma uinv_return es w ges i kept sn rest n who w' r : uinv es w ges -> in_progress i es = (kept, sn) :: rest -> (forall u, who = Some u -> keeps es u) ->
  ustep debug heaps i (UReturn n who) w = (w', r) ->
  (exists f g, r = UServed (shutting f kept ++ [answer sn n (option_map Some who)] ++ shutting g who)) /\
  (forall j, policies (base w') j = policies (base w) j) /\ (forall j p tail u, finds (base w') j p tail u <-> finds (base w) j p tail u) /\
  (forall j, trees (base w') j = trees (base w) j) /\
  (forall v, kept = Some v \/ who = Some v -> closings (base w') v = 1%nat) /\ (forall u, kept <> Some u -> who <> Some u -> closings (base w') u = closings (base w) u) /\
  exists ges', uinv (es ++ [(i, (UReturn n who, r))]) w' ges'.
Proof.
  intros V Ic Hw E. set (g := lib (base w) i) in *. set (fd := option_map (fun u => number u (kern (own g))) who).
  destruct (pop_kept es w ges i kept sn rest (net (lib (base w) i)) (no_request still) (finish n fd sn) V Ic) as (p & ps & Rw & Sp & ges' & f & before & s1 & A & C & St & Tr & Fr & Lk & Cl1 & Cl2 & Fi).
  fold g in A, C, Cl1, Cl2, Fi. cbn [ustep] in E. rewrite Rw in E. fold g in E. cbv zeta in E. change (option_map _ who) with fd in E. rewrite Sp in E. rewrite A in E.
  unfold finish in E. rewrite act_answer in E.
  set (b1 := after (base w) i (Gate s1 (net g))) in *.
  assert (T1 : forall j, trees b1 j = trees (base w) j) by (intros j; unfold b1, after; cbn; unfold upd; destruct (Nat.eqb_spec j i) as [-> |]; [exact Tr|reflexivity]).
  assert (P1 : forall j, policies b1 j = policies (base w) j) by (intros j; unfold b1, after; cbn; unfold upd; destruct (Nat.eqb_spec j i) as [-> |]; reflexivity).
  assert (Rest : forall x, snd x = r -> (exists n0, fst x = UReturn n0 who) -> (exists evs, r = UServed evs) -> (forall j, in_progress j (es ++ [(i, x)]) = if Nat.eqb j i then rest else in_progress j es) /\
      (forall v, waiting (es ++ [(i, x)]) v -> exists j, if Nat.eqb j i then In v (kepts rest) else In v (kepts (in_progress j es)))).
  { intros [x0 x1] E1 (n0 & E2) (evs & E3). cbn in E1, E2. subst x0 x1 r.
    assert (Ip : forall j, in_progress j (es ++ [(i, (UReturn n0 who, UServed evs))]) = if Nat.eqb j i then rest else in_progress j es).
    { intros j. rewrite in_progress_snoc. destruct (Nat.eqb_spec j i) as [-> |Dj]; [|apply stacked_other, Dj]. unfold stacked. cbn. rewrite Nat.eqb_refl, Ic. reflexivity. }
    split; [exact Ip|]. intros v (j & I1). exists j. rewrite Ip in I1. destruct (Nat.eqb j i); exact I1. }
  destruct who as [u|].
  - specialize (Hw u eq_refl). pose proof (u_core _ _ _ V) as C0.
    assert (H1 : holds (handled es) u) by exact Hw. pose proof (c_holds _ _ _ _ _ C u H1) as Hg. pose proof (c_holds _ _ _ _ _ C0 u H1) as Hg0.
    destruct (held_number debug _ _ u (c_linv _ _ _ _ _ C0) Hg0) as [m Lm].
    destruct (table_nodup debug _ _ (c_linv _ _ _ _ _ C0)) as (N1 & N2 & N3). pose proof Lm as Im. apply (lookup_in _ _ _ N1) in Im. destruct (N3 _ _ Im) as [Pm _].
    assert (Em : fd = Some m) by (unfold fd; cbn [option_map]; rewrite (number_in u (table (base w)) m N2 Im : number u (kern (own g)) = m); reflexivity).
    assert (Lm1 : lookup m (kern s1) = Some u) by (apply Lk; assumption).
    rewrite Em in E. cbn [option_map close_opt] in E. rewrite Lm1 in E.
    rewrite (act_close debug _ _ _ _ _ m u _ _ Pm Lm1) in E. cbn [act obind] in E. injection E as <- <-. cbn [base].
    pose proof (step_close debug ges' b1 i m u (c_linv _ _ _ _ _ C) Hg Lm1) as Sc.
    destruct (core_host debug _ _ _ _ i (Close u) _ _ C H1 Sc) as (C2 & _ & _ & Num & _ & _ & Pl). specialize (Pl (or_intror (ex_intro _ u eq_refl))).
    set (b2 := host_step b1 i (shut m u (own (lib b1 i)))) in *. set (b3 := after (base w) i (Gate (shut m u s1) (net g))).
    assert (S3 : forall j, lib b3 j = lib b2 j).
    { intros j. unfold b3, b2, host_step, b1, lib, after. cbn. unfold upd. destruct (Nat.eqb_spec j i) as [-> |]; rewrite ?Nat.eqb_refl; reflexivity. }
    assert (T3 : forall j, trees b3 j = trees (base w) j) by (intros j; unfold b3, after; cbn; unfold upd; destruct (Nat.eqb_spec j i) as [-> |]; [exact Tr|reflexivity]).
    split; [exists f, m; reflexivity|]. split; [intros j; unfold b3, after; cbn; unfold upd; destruct (Nat.eqb_spec j i) as [-> |]; reflexivity|]. split; [|split; [exact T3|split; [|split]]].
    + intros j pp tail v. rewrite <- Fi, <- Pl. change (finds b3 j pp tail v <-> finds b2 j pp tail v). unfold finds. rewrite (f_equal (fun g => tree (own g)) (S3 j) : trees b3 j = trees b2 j). reflexivity.
    + intros v Ev. change (closings b3 v = 1%nat). unfold closings. rewrite S3. change (closings b2 v = 1%nat). destruct (Nat.eq_dec v u) as [-> |Du]; [exact (closed_once debug ges' b1 i m u (c_linv _ _ _ _ _ C) Hg)|].
      destruct Ev as [Ev|Ev]; [|congruence]. destruct (Cl1 v Ev) as [X _]. rewrite <- X. unfold closings, times_closed. change (closes (own (lib b2 0))) with (closed b1 ++ [(m, Some u)]). rewrite filter_app, app_length.
      cbn [filter snd]. destruct (Nat.eqb_spec u v); [congruence|]. cbn [length]. rewrite Nat.add_0_r. reflexivity.
    + intros v Nk Nu. change (closings b3 v = closings (base w) v). rewrite <- (Cl2 v Nk). unfold closings at 1. rewrite S3. unfold closings, times_closed. change (closes (own (lib b2 0))) with (closed b1 ++ [(m, Some u)]). rewrite filter_app, app_length.
      cbn [filter snd]. destruct (Nat.eqb_spec u v); [congruence|]. cbn [length]. rewrite Nat.add_0_r. reflexivity.
    + set (r := UServed _) in *. set (x := (UReturn n (Some u), r)). destruct (Rest x eq_refl (ex_intro _ n eq_refl) (ex_intro _ _ eq_refl)) as [Ip Wt].
      exists (ges' ++ [(i, (Host (Close u), Did Done))]). eapply (calls_pop es w ges i x); [exact V|exact Ic| | | | |reflexivity| | |exact T3].
      * rewrite <- in_progress_snoc, Ip, Nat.eqb_refl. reflexivity.
      * rewrite handled_app. cbn [handled flat_map snd x app]. eapply core_same; [eapply core_less; [exact C2|exact Wt]|exact S3].
      * intros j. rewrite only_settings_one, network_app, St. cbn. destruct (i =? j)%nat; rewrite !app_nil_r; reflexivity.
      * intros j. rewrite registered_app. cbn. apply app_nil_r.
      * exists p, ps. split; [exact Rw|reflexivity].
      * intros z v Wv Lz. change (lookup z (table b2) = Some v). pose proof (proj1 (c_kept _ _ _ _ _ C2 v (Wt v Wv))) as Hv. apply Num; [|exact Hv]. apply Lk; [exact Lz|]. apply (c_kept _ _ _ _ _ C v (Wt v Wv)).
  - cbn [option_map] in fd. unfold fd in E. cbn [option_map close_opt act obind] in E. injection E as <- <-. cbn [base]. fold b1.
    split; [exists f, 0; reflexivity|]. split; [exact P1|]. split; [exact Fi|]. split; [exact T1|]. split; [intros v [Ev|Ev]; [apply Cl1, Ev|discriminate]|]. split; [intros v Nk _; apply Cl2, Nk|].
    set (r := UServed _) in *. set (x := (UReturn n None, r)). destruct (Rest x eq_refl (ex_intro _ n eq_refl) (ex_intro _ _ eq_refl)) as [Ip Wt].
    exists ges'. eapply (calls_pop es w ges i x); [exact V|exact Ic| | | | |reflexivity| | |exact T1].
    + rewrite <- in_progress_snoc, Ip, Nat.eqb_refl. reflexivity.
    + rewrite handled_app. cbn [handled flat_map snd x app]. rewrite app_nil_r. eapply core_less; [exact C|exact Wt].
    + intros j. rewrite network_app. cbn. rewrite app_nil_r. apply St.
    + intros j. rewrite registered_app. cbn. apply app_nil_r.
    + exists p, ps. split; [exact Rw|reflexivity].
    + intros z v Wv Lz. change (lookup z (kern s1) = Some v). apply Lk; [exact Lz|]. apply (c_kept _ _ _ _ _ C v (Wt v Wv)).
Qed.

Lemma uruns_uinv es w : uruns debug heaps es w -> exists ges, uinv es w ges.
Proof.
  induction 1 as [|es w i o w' r R [ges V] Al E]; [exists []; exact uinv_0|].
  destruct o as [o|no p|sz tk|q|n who|].
  - cbn [ustep] in E. destruct (step debug o (own (lib (base w) i))) as [s' ro] eqn:S. injection E as <- <-.
    apply (uinv_do es w ges i o s' ro V Al S).
  - cbn [ustep] in E. injection E as <- <-. apply (uinv_set es w ges i no p V).
  - cbn [ustep] in E. destruct (uinv_register es w ges i sz tk V) as [Er V']. rewrite Er in E. injection E as <- <-. eexists. exact V'.
  - destruct (q_msg q) as [[rq fd]|] eqn:Qm.
    + destruct (for_user_dec (registered i es) rq) as [(sz & tk & U)|U].
      * pose proof Al as (_ & Wd & _). specialize (Wd _ _ Qm). destruct (fits_dec (shm i) (size i) (hdr i) (M i) rq Wd sz) as [F|F].
        -- apply (uinv_enter es w ges i q rq fd sz tk w' r V Al Qm U F E).
        -- apply (uinv_misfit es w ges i q rq fd sz tk w' r V Al Qm U F E).
      * destruct (uinv_serve es w ges i q w' r V Al E) as (g' & _ & _ & evs & -> & _ & _ & X); [|exact X].
        intros rq' fd' E' sz tk. rewrite Qm in E'. injection E' as <- <-. apply U.
    + destruct (uinv_serve es w ges i q w' r V Al E) as (g' & _ & _ & evs & -> & _ & _ & X); [|exact X].
      intros rq' fd' E'. congruence.
  - destruct Al as [Ip Hw]. destruct (in_progress i es) as [|[kept sn] rest] eqn:Ic; [congruence|].
    apply (uinv_return es w ges i kept sn rest n who w' r V Ic Hw E).
  - cbn [uallowed] in Al. destruct (in_progress i es) as [|[kept sn] rest] eqn:Ic; [congruence|].
    apply (uinv_throw es w ges i kept sn rest w' r V Ic E).
Qed.
End INV.
