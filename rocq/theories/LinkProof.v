(** Proofs for C74. *)
From Coq Require Import List ZArith Bool Lia.
From Verif Require Import ProtoModel ProtoSpec ProtoProof ProtoLoad ProtoProgress ProtoProps ProtoLoadProgress.
From Verif Require Import FrameModel FrameSpec FrameProps LinkModel LinkSpec.
Import ListNotations.
Open Scope Z_scope.

Section Link.
Variable hcode : list obs -> hcmd.
Variable fcode : list obs -> fcmd.
Variable sig : Z -> layout.
Variable place : world -> Z -> Z.
Variable other : world -> memory.
Variable ks : list Z.
Hypothesis layouts : proper sig.
Hypothesis fresh_frames : allocates sig place.
Hypothesis calm_frames : calm sig other.
Hypothesis types : typed hcode fcode ks sig.
Hypothesis quiet_load : forall t k i args, In k ks -> (forall i a, ~ In (OStart i a) t) ->
  hcode (t ++ [OHandle k]) <> Call i args.

Notation replay := (replay hcode fcode sig other).
Notation effect := (effect hcode fcode sig).
Notation meanwhile := (meanwhile other).
Notation hd := (host_do hcode fcode sig place other).
Notation cd := (child_do hcode fcode sig other).
Notation direct := (direct hcode fcode ks).

Lemma replay_snoc l e : replay (l ++ [e]) = effect (meanwhile (replay l)) e.
Proof. unfold LinkModel.replay. rewrite fold_left_app. reflexivity. Qed.

(** ** Memory *)
Lemma in_frame i b off n x : In (off, n) (fields (sig i)) -> b + off <= x < b + off + Z.of_nat n ->
  within sig (Frame i b PSent) x.
Proof.
  intros I X. destruct (layouts i) as [[A _] _]. specialize (A (off, n) (x - b) I).
  unfold in_field, within in *. cbn in *. lia.
Qed.
Lemma read_args_ext m m' i b : (forall x, within sig (Frame i b PSent) x -> m x = m' x) ->
  read_args m b (sig i) = read_args m' b (sig i).
Proof.
  intros H. unfold read_args. apply map_ext_in. intros [off n] I. apply bytes_at_ext.
  intros x X. apply H. eapply in_frame; [right; exact I|exact X].
Qed.
Lemma read_ret_ext m m' i b : (forall x, within sig (Frame i b PSent) x -> m x = m' x) ->
  bytes_at m (b + fst (l_ret (sig i))) (snd (l_ret (sig i))) = bytes_at m' (b + fst (l_ret (sig i))) (snd (l_ret (sig i))).
Proof.
  intros H. apply bytes_at_ext. intros x X. apply H. eapply in_frame; [left; apply surjective_pairing|exact X].
Qed.
Lemma stored_args m i b args : sized (sig i) args ->
  read_args (put_bytes m (frame_stores b (sig i) args)) b (sig i) = args.
Proof.
  intros S. unfold frame_stores. rewrite put_app. apply args_back; [exact S|].
  destruct (layouts i) as [[_ O] _]. inversion O; auto.
Qed.

(** ** Frames *)
Definition running (st : list open) : list frame :=
  flat_map (fun o => match o with OFn i b => [Frame i b PRunning] | OHandler _ => [] end) st.
Definition all_frames (st : list open) (ct : control) : list frame :=
  match ct with
  | Requested i b => Frame i b PSent :: running st
  | Returned i b => Frame i b PFinished :: running st
  | _ => running st
  end.
Definition spread (fs : list frame) : Prop := ForallOrdPairs (apart sig) fs.

Lemma apart_at f g : apart sig f g -> f_at f <> f_at g.
Proof.
  intros A E. destruct (layouts (f_fn f)) as [_ P]. destruct (layouts (f_fn g)) as [_ P'].
  apply (A (f_at f)); unfold within; lia.
Qed.
Lemma apart_phase i b p q g : apart sig (Frame i b p) g -> apart sig (Frame i b q) g.
Proof. intros A x X. apply A. exact X. Qed.
Lemma spread_phase i b p q fs : spread (Frame i b p :: fs) -> spread (Frame i b q :: fs).
Proof.
  intros S. inversion S; subst. constructor; auto.
Qed.
Lemma mark_head i b p q fs : spread (Frame i b p :: fs) -> mark b q (Frame i b p :: fs) = Frame i b q :: fs.
Proof.
  intros S. inversion S as [|a l F _]; subst. unfold mark. cbn [map f_at f_fn]. rewrite Z.eqb_refl. f_equal.
  rewrite <- (map_id fs) at 2. apply map_ext_in. intros g G.
  destruct (Z.eqb_spec (f_at g) b) as [E|]; [|reflexivity].
  rewrite Forall_forall in F. apply F, apart_at in G. cbn in G. congruence.
Qed.
Lemma release_head i b p fs : spread (Frame i b p :: fs) -> release b (Frame i b p :: fs) = fs.
Proof.
  intros S. inversion S as [|a l F _]; subst. unfold release. cbn [filter f_at]. rewrite Z.eqb_refl. cbn [negb].
  rewrite Forall_forall in F. clear S. induction fs as [|g fs IH]; [reflexivity|]. cbn [filter].
  destruct (Z.eqb_spec (f_at g) b) as [E|].
  - specialize (F g (or_introl eq_refl)). apply apart_at in F. cbn in F. congruence.
  - cbn [negb]. f_equal. apply IH. intros x X. apply F. right. exact X.
Qed.

(** ** The relation between the sequential program of ProtoSpec and the direct one *)
Definition plain (st : list open) : list doing :=
  map (fun o => match o with OFn i _ => Fn i | OHandler k => Handling k end) st.

Definition told (st : list open) (ct : control) (w : world) : Prop :=
  match ct with
  | InHost => direct (plain st) (seen w) /\ hosts_turn (plain st)
  | InSandbox => direct (plain st) (seen w) /\ ~ hosts_turn (plain st)
  | Requested i b => exists args, direct (Fn i :: plain st) (seen w ++ [OStart i args]) /\
      hosts_turn (plain st) /\ read_args (mem w) b (sig i) = args
  | Returned i b => exists v, direct (plain st) (seen w ++ [ODone i v]) /\ hosts_turn (plain st) /\
      bytes_at (mem w) (b + fst (l_ret (sig i))) (snd (l_ret (sig i))) = v
  | Asked k => direct (Handling k :: plain st) (seen w ++ [OHandle k])
  | Answered k r => direct (plain st) (seen w ++ [OResume k r]) /\ ~ hosts_turn (plain st)
  end.
Definition rel (st : list open) (ct : control) (l : list event) : Prop :=
  let w := replay l in
  frames w = all_frames st ct /\ spread (frames w) /\ told st ct w.

Inductive alt : list doing -> Prop :=
| alt_nil : alt []
| alt_fn i st : alt st -> hosts_turn st -> alt (Fn i :: st)
| alt_handling k i st : alt (Fn i :: st) -> alt (Handling k :: Fn i :: st).
Lemma direct_alt st t : direct st t -> alt st.
Proof.
  induction 1; try (constructor; auto; fail).
  - repeat constructor.
  - inversion IHdirect; auto.
  - inversion IHdirect; auto.
Qed.

Lemma seen_req w i b args : hcode (seen w) = Call i args ->
  effect (meanwhile w) (EReq i b) =
    World (put_bytes (other w) (frame_stores b (sig i) args)) (Frame i b PSent :: frames w) (seen w ++ [OCall i args]).
Proof. intros E. cbn. rewrite E. reflexivity. Qed.

Lemma place_spread w i : spread (frames w) -> spread (Frame i (place w i) PSent :: frames w).
Proof.
  intros S. constructor; auto. apply Forall_forall. intros f F. destruct (fresh_frames w i) as [_ A]. auto.
Qed.

Lemma rel_step st ct l st' ct' l' : rel st ct l ->
  seq_step hd cd (st, ct, l) (st', ct', l') -> rel st' ct' l'.
Proof.
  intros (F & S & T) Q. unfold rel in *. inversion Q; subst; rewrite replay_snoc; set (w := replay l) in *.
  - (* call *)
    unfold host_do in H0. fold w in H0. destruct (hcode (seen w)) as [i' args|r] eqn:E; [|discriminate].
    injection H0 as -> <-. rewrite (seen_req w i _ args E). destruct T as [D Hh]. cbn [frames mem seen told].
    split; [cbn [all_frames] in *; rewrite F; reflexivity|]. split; [apply place_spread; exact S|].
    exists args. split; [|split; [exact Hh|]].
    + rewrite <- app_assoc. apply d_call; auto.
    + apply stored_args. apply (proj1 types _ _ _ E).
  - (* invoke *)
    destruct T as (args & D & Hh & R). cbn [LinkModel.effect LinkModel.meanwhile mem frames seen told].
    rewrite F in *. cbn [all_frames] in *. rewrite (mark_head i b PSent PRunning) by exact S.
    split; [reflexivity|]. split; [eapply spread_phase; exact S|].
    rewrite (read_args_ext _ (mem w)).
    + rewrite R. split; [exact D|]. cbn. auto.
    + intros x X. eapply calm_frames; [rewrite F; left; reflexivity|discriminate|exact X].
  - (* callback *)
    unfold child_do in H0. fold w in H0. destruct (fcode (seen w)) as [k'|v] eqn:E; [|discriminate].
    injection H0 as ->. destruct T as [D _]. cbn [LinkModel.effect LinkModel.meanwhile note mem frames seen told].
    split; [exact F|]. split; [exact S|]. rewrite <- app_assoc. cbn [plain map] in *. apply d_callback; auto.
  - (* handle *)
    cbn [LinkModel.effect LinkModel.meanwhile note mem frames seen told] in *.
    split; [exact F|]. split; [exact S|]. split; [exact T|cbn; auto].
  - (* handled *)
    unfold host_do in H0. fold w in H0. destruct (hcode (seen w)) as [i' args|r'] eqn:E; [discriminate|].
    injection H0 as ->. destruct T as [D _]. cbn [LinkModel.effect LinkModel.meanwhile note mem frames seen told].
    split; [exact F|]. split; [exact S|]. rewrite <- app_assoc.
    change (plain (OHandler k :: st')) with (Handling k :: plain st') in D.
    split; [eapply d_answer; eauto|]. apply direct_alt in D. inversion D as [| |k0 i0 s0 D' E0]. cbn. auto.
  - (* resume *)
    destruct T as [D N]. cbn [LinkModel.effect LinkModel.meanwhile note mem frames seen told] in *.
    split; [exact F|]. split; [exact S|]. split; assumption.
  - (* return *)
    unfold child_do in H0. fold w in H0. destruct (fcode (seen w)) as [k'|v] eqn:E; [discriminate|].
    destruct T as [D _]. cbn [LinkModel.effect LinkModel.meanwhile mem frames seen told]. rewrite E. cbn [frames mem seen].
    rewrite F in *. cbn [all_frames running flat_map app] in *.
    rewrite (mark_head i b PRunning PFinished) by exact S.
    split; [reflexivity|]. split; [eapply spread_phase; exact S|].
    change (plain (OFn i b :: st')) with (Fn i :: plain st') in D. exists v. rewrite <- app_assoc. split; [eapply d_return; eauto|].
    split; [apply direct_alt in D; inversion D; auto|].
    rewrite <- (proj2 types _ _ _ _ D E). apply put_at.
  - (* done *)
    destruct T as (v & D & Hh & R). cbn [LinkModel.effect LinkModel.meanwhile mem frames seen told].
    rewrite F in *. cbn [all_frames] in *. rewrite (release_head i b PFinished) by exact S.
    split; [reflexivity|]. split; [inversion S; auto|].
    rewrite (read_ret_ext _ (mem w)).
    + rewrite R. split; assumption.
    + intros x X. eapply calm_frames; [rewrite F; left; reflexivity|discriminate|exact X].
Qed.

Lemma rel_seq st0 ct0 l0 st ct l : rel st0 ct0 l0 -> seq hd cd (st0, ct0, l0) (st, ct, l) -> rel st ct l.
Proof.
  intros R Q. remember (st0, ct0, l0) as a eqn:Ea. remember (st, ct, l) as c eqn:Ec. revert st ct l Ec.
  induction Q as [|c c' Q IH St]; intros st ct l Ec.
  - subst. injection Ec as -> -> ->. exact R.
  - subst. destruct c as [[st1 ct1] l1]. eapply rel_step; [apply IH; reflexivity|exact St].
Qed.

(** ** Loading *)
Definition ob (e : event) : option obs :=
  match e with
  | ECallback k => Some (OCallback k) | EHandle k => Some (OHandle k)
  | EHandled k r => Some (OHandled k r) | EResume k r => Some (OResume k r)
  | _ => None
  end.
(** Events of loading, as observations. *)
Definition same (l : list event) (t : list obs) : Prop := Forall2 (fun e o => ob e = Some o) l t.
Lemma same_load done : same (load_events done) (served done).
Proof. induction done as [|[k r] done IH]; cbn; repeat constructor. exact IH. Qed.

Lemma same_replay l t : same l t -> forall m,
  let w := replay m in let w' := replay (m ++ l) in
  frames w' = frames w /\ seen w' = seen w ++ t /\
  (forall f x, In f (frames w) -> f_phase f <> PRunning -> within sig f x -> mem w' x = mem w x).
Proof.
  induction 1 as [|e o l t E H IH]; intros m; cbn zeta in *.
  - rewrite !app_nil_r. auto.
  - specialize (IH (m ++ [e])). rewrite <- app_assoc in IH. cbn [app] in IH. destruct IH as (F & Sn & M).
    rewrite replay_snoc in F, Sn, M.
    assert (X : effect (meanwhile (replay m)) e = note o (meanwhile (replay m)))
      by (destruct e; cbn in E; try discriminate; injection E as <-; reflexivity).
    rewrite X in F, Sn, M. cbn in F, Sn, M. split; [exact F|]. split; [rewrite Sn, <- app_assoc; reflexivity|].
    intros f x I P W. rewrite (M f x I P W). exact (calm_frames (replay m) f x I P W).
Qed.
Lemma app_same l1 l2 t : same (l1 ++ l2) t -> exists t1 t2, t = t1 ++ t2 /\ same l1 t1 /\ same l2 t2.
Proof.
  revert t. induction l1 as [|e l1 IH]; intros t H.
  - exists [], t. repeat split; auto. constructor.
  - inversion H as [|e' o l' t' E H']; subst. destruct (IH t' H') as (t1 & t2 & -> & A & B).
    exists (o :: t1), t2. repeat split; auto. constructor; auto.
Qed.

Notation decided := (decided hd cd).
Definition all_decided (l : list event) : Prop := forall l1 e l2, l = l1 ++ e :: l2 -> decided l1 e.
Lemma all_decided_app l1 l2 : all_decided (l1 ++ l2) -> all_decided l1.
Proof. intros H a e b ->. apply (H a e (b ++ l2)). rewrite <- app_assoc. reflexivity. Qed.

Lemma answered_snoc t o : answered hcode t -> (forall k r, o = OHandled k r -> hcode t = Give r) -> answered hcode (t ++ [o]).
Proof.
  intros A H p k r q E. destruct (snoc_inv q) as [-> |(y & z & ->)].
  - apply app_inj_tail in E as [<- ->]. eapply H; reflexivity.
  - rewrite app_comm_cons, app_assoc in E. apply app_inj_tail in E as [-> _]. eapply A; reflexivity.
Qed.
Lemma decided_answered l : all_decided l -> answered hcode (seen (replay l)).
Proof.
  induction l as [|e l IH] using rev_ind; intros H.
  - intros p k r q E. destruct p; discriminate.
  - specialize (IH (all_decided_app _ _ H)). rewrite replay_snoc.
    specialize (H l e [] eq_refl).
    destruct e; cbn [LinkModel.effect LinkModel.meanwhile note seen];
      try (apply answered_snoc; [exact IH|discriminate]).
    + destruct (hcode (seen (replay l))); [|exact IH]. apply answered_snoc; [exact IH|discriminate].
    + apply answered_snoc; [exact IH|]. intros k0 r0 E0. injection E0 as <- <-. cbn in H. unfold host_do in H.
      destruct (hcode (seen (replay l))); [discriminate|]. injection H as ->. reflexivity.
    + destruct (fcode (seen (replay l))); [exact IH|]. apply answered_snoc; [exact IH|discriminate].
Qed.

Lemma rel_start st ct l : load_start ks (st, ct, l) -> all_decided l -> rel st ct l.
Proof.
  intros (done & K & [E|(i & b & l' & E & l1 & l2 & E1 & E2)]) D.
  - injection E as -> -> ->. pose proof (same_replay _ _ (same_load done) []) as (F & Sn & _).
    pose proof (decided_answered _ D) as A. cbn [app] in *. cbn in F, Sn. unfold rel. rewrite F. split; [reflexivity|].
    split; [constructor|]. rewrite Sn in *. cbn. rewrite Sn. split; [|exact Logic.I]. constructor; auto.
  - injection E as -> -> ->. subst l'.
    pose proof (decided_answered _ D) as A.
    assert (Q : decided l1 (EReq i b)) by (apply (D l1 _ l2); reflexivity). cbn in Q.
    pose proof (same_load done) as SL. rewrite E1 in SL. apply app_same in SL as (t1 & t2 & Es & S1 & S2).
    pose proof (same_replay _ _ S1 []) as (F1 & Sn1 & _).
    change (frames (replay l1) = []) in F1. change (seen (replay l1) = t1) in Sn1.
    unfold host_do in Q. destruct (hcode (seen (replay l1))) as [i' args|r] eqn:H; [|discriminate].
    injection Q as -> <-.
    pose proof (same_replay _ _ S2 (l1 ++ [EReq i (place (replay l1) i)])) as (F2 & Sn2 & M2).
    rewrite <- app_assoc in F2, Sn2, M2. cbn [app] in F2, Sn2, M2.
    rewrite replay_snoc, (seen_req _ _ _ _ H) in F2, Sn2, M2. cbn [frames seen mem] in F2, Sn2, M2.
    rewrite F1 in F2, M2. unfold rel. rewrite F2. split; [reflexivity|]. split; [repeat constructor|].
    cbn [told]. exists args. split; [|split; [exact Logic.I|]].
    + rewrite Sn2, Sn1, <- !app_assoc. cbn [app]. cbn [plain map]. rewrite Sn1 in H.
      apply (d_first _ _ _ done); auto. rewrite Sn2, Sn1, <- !app_assoc in A. exact A.
    + rewrite (read_args_ext _ (put_bytes (other (replay l1)) (frame_stores (place (replay l1) i) (sig i) args))).
      * apply stored_args. apply (proj1 types _ _ _ H).
      * intros x X. eapply M2; [left; reflexivity|discriminate|exact X].
Qed.

(** ** Reachable states *)
Variable debug : bool.
Notation reaches := (reach debug false hd cd (fresh ks)).

Lemma nonnull l i b : hd l = HCall i b -> b <> 0.
Proof.
  unfold host_do. destruct (hcode _) as [i' a|r]; [|discriminate]. intros E. injection E as -> <-.
  apply fresh_frames.
Qed.
Lemma starts_in l i a : In (OStart i a) (seen (replay l)) -> exists i b, In (EInvoke i b) l.
Proof.
  induction l as [|e l IH] using rev_ind; [intros []|]. rewrite replay_snoc. intros H.
  assert (X : In (OStart i a) (seen (replay l)) \/ exists i b, e = EInvoke i b).
  { destruct e; cbn [LinkModel.effect LinkModel.meanwhile note seen] in H; eauto;
      try (apply in_app_or in H as [H|[H|[]]]; [left; exact H|discriminate]).
    - destruct (hcode (seen (replay l))); [|auto]. cbn in H.
      apply in_app_or in H as [H|[H|[]]]; [left; exact H|discriminate].
    - destruct (fcode (seen (replay l))); [auto|]. cbn in H.
      apply in_app_or in H as [H|[H|[]]]; [left; exact H|discriminate]. }
  destruct X as [X|(i' & b' & ->)].
  - destruct (IH X) as (i' & b' & Y). exists i', b'. apply in_or_app. auto.
  - exists i', b'. apply in_or_app. right. left. reflexivity.
Qed.
Lemma quiet l k i b : In k ks -> no_invoke l -> hd (l ++ [EHandle k]) <> HCall i b.
Proof.
  intros K N. unfold host_do. rewrite replay_snoc. cbn [LinkModel.effect LinkModel.meanwhile note seen].
  destruct (hcode (seen (replay l) ++ [OHandle k])) as [i' a|r] eqn:E; [|discriminate].
  exfalso. eapply quiet_load; [exact K| |exact E]. intros j x X. apply starts_in in X as (i1 & b1 & X). exact (N _ _ X).
Qed.

Lemma reach_decided s : reaches s -> all_decided (log s).
Proof. intros R l1 e l2 E. exact (user_code_decides _ _ _ _ s l1 e l2 R E). Qed.

Lemma seq_prefix st0 ct0 l0 st ct l : seq hd cd (st0, ct0, l0) (st, ct, l) -> exists x, l = l0 ++ x.
Proof.
  intros Q. remember (st0, ct0, l0) as a eqn:Ea. remember (st, ct, l) as c eqn:Ec. revert st ct l Ec.
  induction Q as [|c c' Q IH St]; intros st ct l Ec.
  - subst. injection Ec as -> -> ->. exists []. rewrite app_nil_r. reflexivity.
  - subst. destruct c as [[st1 ct1] l1]. destruct (IH _ _ _ eq_refl) as (x & ->).
    inversion St; subst; rewrite <- app_assoc; eauto.
Qed.

Lemma reach_rel s : reaches s ->
  no_invoke (log s) \/
  exists st ct l, rel st ct l /\ (log s = l \/ (log s = l ++ [EQuit] /\ st = [] /\ ct = InHost)).
Proof.
  intros R. destruct (calls_are_sequential debug hd cd ks nonnull quiet s R) as [N|(c0 & st & ct & l & LS & Q & E)]; [auto|].
  right. exists st, ct, l. split; [|exact E]. destruct c0 as [[st0 ct0] l0].
  assert (D : all_decided l) by
    (pose proof (reach_decided s R) as D; destruct E as [E|(E & _ & _)]; rewrite E in D;
     [exact D|eapply all_decided_app; exact D]).
  destruct (seq_prefix _ _ _ _ _ _ Q) as (x & Ex).
  eapply rel_seq; [|exact Q]. apply rel_start; [exact LS|]. subst l. eapply all_decided_app. exact D.
Qed.

(** ** Before the first function starts nothing has returned *)
Definition early (e : event) : Prop :=
  match e with EInvoke _ _ | EReturn _ _ | EDone _ _ | EThrow => False | _ => True end.
Lemma early_host fail s s' : reaches s -> host_step debug false hd fail s = Some s' ->
  no_invoke (log s') -> Forall early (log s) -> Forall early (log s').
Proof.
  clear types. intros R H N E.
  assert (X : log s' = log s \/ exists e, log s' = log s ++ [e] /\
    (early e \/ (exists i b d, hpc s = HCheck i b d /\ (d <? depth (sh s)) = false)
     \/ (exists i b d, hpc s = HPoll i b d /\ gone (cpc s) = true))).
  { unfold host_step in H. crunch H; injection H as <-; cbn [log]; auto; right; eexists; (split; [reflexivity|]);
      cbn; auto; right; eauto 10. }
  assert (NI : no_invoke (log s)).
  { destruct X as [X|(e & X & _)]; rewrite X in N; [exact N|]. apply no_invoke_app in N. tauto. }
  assert (A : forall e, early e -> Forall early (log s ++ [e])) by (intros e Ee; apply Forall_app; auto).
  destruct X as [X|(e & X & [Y|[(i & b & d & Y & Z)|(i & b & d & Y & Z)]])]; rewrite X in *; auto; exfalso.
  - destruct (All_reach debug hd cd nonnull ks quiet s R) as [L|(c0 & LS & HI)].
    + destruct L; cbn in Y; unfold basew, base in *; cases; subst; try discriminate.
      rewrite Y in H0. discriminate.
    + destruct HI; cbn in Y, Z, NI; cases; subst; try discriminate;
      try (match goal with [ Sq : seq _ _ _ (_, _, _) |- _ ] =>
        destruct (not_started _ _ _ _ _ _ _ LS Sq NI) as [E0 [E1|(i1 & b1 & E1 & J)]]; discriminate end).
      all: injection Y as <- <- <-; rewrite ltb_succ in Z; discriminate.
  - destruct (All_reach debug hd cd nonnull ks quiet s R) as [L|(c0 & LS & HI)].
    + destruct L; cbn in Y; unfold basew, base in *; cases; subst; try discriminate.
      rewrite Y in H0. discriminate.
    + destruct HI; cbn in Y, Z, NI; unfold waiting, parked in *; cases; subst; discriminate.
Qed.
Lemma early_child fail s s' : reaches s -> child_step debug cd fail s = Some s' ->
  no_invoke (log s') -> Forall early (log s) -> Forall early (log s').
Proof.
  clear types. intros R H N E.
  assert (X : log s' = log s \/ exists e, log s' = log s ++ [e] /\
    (early e \/ (exists i b, e = EInvoke i b) \/ (exists d i b st, cpc s = CUser /\ cstk s = KRun d i b :: st))).
  { unfold child_step in H. crunch H; injection H as <-; cbn [log]; auto; right; eexists; (split; [reflexivity|]);
      cbn; eauto 10. }
  assert (NI : no_invoke (log s)).
  { destruct X as [X|(e & X & _)]; rewrite X in N; [exact N|]. apply no_invoke_app in N. tauto. }
  destruct X as [X|(e & X & [Y|[(i & b & ->)|(d & i & b & st & Y & Z)]])]; rewrite X in *; auto.
  - apply Forall_app; auto.
  - destruct (N i b). apply in_or_app. right. left. reflexivity.
  - exfalso. destruct (All_reach debug hd cd nonnull ks quiet s R) as [L|(c0 & LS & HI)].
    + destruct L; cbn in Y, Z; unfold parked in *; cases; subst; try discriminate.
      match goal with [ F : forall f, In f (cstk s) -> _ |- _ ] => specialize (F (KRun d i b)); rewrite Z in F;
        apply F; left; reflexivity end.
    + destruct HI; cbn in Y, Z, NI; unfold parked in *; cases; subst; try discriminate;
      match goal with [ Sq : seq _ _ _ (_, _, _) |- _ ] =>
        destruct (not_started _ _ _ _ _ _ _ LS Sq NI) as [E0 _]; discriminate end.
Qed.
Lemma reach_early s : reaches s -> no_invoke (log s) -> Forall early (log s).
Proof.
  intros R. induction R as [|s s' R IH St]; intros N; [constructor|].
  assert (NI : no_invoke (log s)).
  { destruct St as [f a a' H|f a a' H]; [apply host_log in H as (x & H)|apply child_log in H as (x & H)];
      rewrite H in N; apply no_invoke_app in N; tauto. }
  destruct St as [f a a' H|f a a' H]; [eapply early_host|eapply early_child]; eauto.
Qed.
Lemma early_seen l : Forall early l -> not_begun (seen (replay l)).
Proof.
  induction l as [|e l IH] using rev_ind; intros E; [intros o []|].
  apply Forall_app in E as [E1 E2]. specialize (IH E1). inversion E2 as [|x y Ex _]; subst. rewrite replay_snoc.
  assert (A : forall o, (match o with OStart _ _ | OReturn _ _ | ODone _ _ | OThrow => False | _ => True end) ->
    not_begun (seen (replay l) ++ [o])).
  { intros o Ho o' I. apply in_app_or in I as [I|[<-|[]]]; [apply IH; exact I|exact Ho]. }
  destruct e; cbn in Ex; try contradiction; cbn [LinkModel.effect LinkModel.meanwhile note seen];
    try (apply A; exact Logic.I).
  destruct (hcode (seen (replay l))); [apply A; exact Logic.I|exact IH].
Qed.

(** ** One observation per event *)
Lemma seen_length l : all_decided l -> length (seen (replay l)) = length l.
Proof.
  induction l as [|e l IH] using rev_ind; intros H; [reflexivity|].
  specialize (IH (all_decided_app _ _ H)). specialize (H l e [] eq_refl). rewrite replay_snoc, app_length. cbn [length].
  destruct e; cbn [LinkModel.effect LinkModel.meanwhile note seen]; try (rewrite app_length, IH; reflexivity).
  - cbn in H. unfold host_do in H. destruct (hcode (seen (replay l))); [|discriminate]. cbn. rewrite app_length, IH. reflexivity.
  - cbn in H. unfold child_do in H. destruct (fcode (seen (replay l))); [discriminate|]. cbn. rewrite app_length, IH. reflexivity.
Qed.
Lemma seen_prefix l e : exists x, seen (replay (l ++ [e])) = seen (replay l) ++ x.
Proof.
  rewrite replay_snoc. destruct e; cbn [LinkModel.effect LinkModel.meanwhile note seen]; eauto.
  - destruct (hcode (seen (replay l))); cbn; eauto. exists []. rewrite app_nil_r. reflexivity.
  - destruct (fcode (seen (replay l))); cbn; eauto. exists []. rewrite app_nil_r. reflexivity.
Qed.

(** ** The direct program is deterministic once a function has started *)
Inductive dstep : list doing -> list obs -> obs -> obs -> list doing -> Prop :=
| s_call st t i args : hosts_turn st -> hcode t = Call i args -> dstep st t (OCall i args) (OStart i args) (Fn i :: st)
| s_callback i st t k : fcode t = Back k -> dstep (Fn i :: st) t (OCallback k) (OHandle k) (Handling k :: Fn i :: st)
| s_answer k st t r : hcode t = Give r -> dstep (Handling k :: st) t (OHandled k r) (OResume k r) st
| s_return i st t v : fcode t = Result v -> dstep (Fn i :: st) t (OReturn i v) (ODone i v) st.
Lemma dstep_det st t a b st1 c d st2 : dstep st t a b st1 -> dstep st t c d st2 -> a = c /\ b = d /\ st1 = st2.
Proof.
  intros H1 H2. inversion H1; subst; inversion H2; subst; try contradiction; repeat split; try congruence; auto.
Qed.
Lemma served_no_start done i a : ~ In (OStart i a) (served done).
Proof. intros X. apply in_flat_map in X as ([k r] & _ & X). cbn in X. intuition discriminate. Qed.
Lemma served_length done : length (served done) = (4 * length done)%nat.
Proof. unfold served. induction done as [|[k r] done IH]; [reflexivity|]. cbn [flat_map app length]. rewrite IH. lia. Qed.

Lemma direct_even st t : direct st t -> exists n, length t = (2 * n)%nat.
Proof.
  induction 1 as [done K A|done l1 l2 i args K E H A|st t i args D [n IH] T H|i st t k D [n IH] H|k st t r D [n IH] H|i st t v D [n IH] H];
    try (exists (n + 1)%nat; rewrite app_length, IH; cbn; lia).
  - exists (2 * length done)%nat. rewrite served_length. lia.
  - exists (2 * length done + 1)%nat. pose proof (served_length done) as X. rewrite E, app_length in X.
    rewrite app_length. cbn. rewrite app_length. cbn. lia.
Qed.

Lemma last_step st t u : direct st (t ++ u) -> begun t -> u <> [] ->
  (exists o, u = [o]) \/ exists v a b st', u = v ++ [a; b] /\ direct st' (t ++ v) /\ dstep st' (t ++ v) a b st.
Proof.
  intros D (i & a & B) NE.
  assert (C : forall t0 x y st', t ++ u = t0 ++ [x; y] -> direct st' t0 -> dstep st' t0 x y st ->
    (exists o, u = [o]) \/ exists v a b st', u = v ++ [a; b] /\ direct st' (t ++ v) /\ dstep st' (t ++ v) a b st).
  { intros t0 x y st' E D0 S0. destruct (snoc_inv u) as [-> |(u1 & y' & ->)]; [congruence|].
    destruct (snoc_inv u1) as [-> |(v & x' & ->)]; [left; eexists; reflexivity|]. right.
    exists v, x, y, st'. replace (t0 ++ [x; y]) with ((t0 ++ [x]) ++ [y]) in E by (rewrite <- app_assoc; reflexivity).
    rewrite !app_assoc in E. apply app_inj_tail in E as [E ->]. apply app_inj_tail in E as [<- ->].
    rewrite <- app_assoc. auto. }
  inversion D; subst; try (eapply C; [symmetry; eassumption|eassumption|constructor; assumption]).
  - exfalso. match goal with [ E : served done = _ |- _ ] => apply (served_no_start done i a); rewrite E; apply in_or_app; auto end.
  - exfalso. match goal with [ E : _ ++ OCall _ _ :: _ ++ [_] = t ++ u |- _ ] => rename E into E0 end.
    destruct (snoc_inv u) as [-> |(u1 & y' & ->)]; [congruence|].
    replace (l1 ++ OCall i0 args :: l2 ++ [OStart i0 args]) with ((l1 ++ OCall i0 args :: l2) ++ [OStart i0 args]) in E0
      by (rewrite <- app_assoc; reflexivity).
    rewrite app_assoc in E0. apply app_inj_tail in E0 as [E0 _].
    assert (X : In (OStart i a) (l1 ++ OCall i0 args :: l2)) by (rewrite E0; apply in_or_app; auto).
    apply (served_no_start done i a). match goal with [ E : served done = _ |- _ ] => rewrite E end.
    apply in_app_or in X as [X|[X|X]]; [| discriminate |]; apply in_or_app; auto.
Qed.

(** The stack is determined by the trace. *)
Definition push (st : list doing) (o : obs) : list doing :=
  match o with
  | OStart i _ => Fn i :: st
  | OHandle k => Handling k :: st
  | OResume _ _ | ODone _ _ => tl st
  | _ => st
  end.
Lemma push_served done st : fold_left push (served done) st = st.
Proof. induction done as [|[k r] done IH]; cbn; auto. Qed.
Lemma direct_stack st t : direct st t -> fold_left push t [] = st.
Proof.
  induction 1; rewrite ?fold_left_app; cbn [fold_left push]; try (rewrite IHdirect; reflexivity).
  - apply push_served.
  - rewrite fold_left_app. cbn [fold_left push].
    assert (X : fold_left push (l1 ++ l2) [] = []) by (rewrite <- H0; apply push_served).
    rewrite fold_left_app in X. rewrite X. reflexivity.
Qed.
Lemma direct_same_stack st1 st2 t : direct st1 t -> direct st2 t -> st1 = st2.
Proof. intros A B. rewrite <- (direct_stack _ _ A). apply direct_stack. exact B. Qed.

Lemma parity st1 t st2 o : direct st1 t -> direct st2 (t ++ [o]) -> False.
Proof.
  intros A B. apply direct_even in A as (n & A). apply direct_even in B as (m & B). rewrite app_length in B. cbn in B. lia.
Qed.
Lemma direct_det n : forall t u1 u2 st st1 st2, length u1 = n -> length u2 = n -> begun t -> direct st t ->
  direct st1 (t ++ u1) -> direct st2 (t ++ u2) -> u1 = u2 /\ st1 = st2.
Proof.
  induction n as [n IH] using lt_wf_ind. intros t u1 u2 st st1 st2 L1 L2 B D D1 D2.
  destruct u1 as [|o1 u1'] eqn:E1.
  - destruct u2; [|cbn in *; lia]. split; auto. rewrite app_nil_r in *. eapply direct_same_stack; eauto.
  - rewrite <- E1 in *. assert (NE1 : u1 <> []) by (subst; discriminate).
    assert (NE2 : u2 <> []) by (subst u1; destruct u2; [cbn in *; lia|discriminate]).
    destruct (last_step _ _ _ D1 B NE1) as [(o & ->)|(v1 & a & b & s1 & -> & P1 & S1)]; [destruct (parity _ _ _ _ D D1)|].
    destruct (last_step _ _ _ D2 B NE2) as [(o & ->)|(v2 & c & d & s2 & -> & P2 & S2)]; [destruct (parity _ _ _ _ D D2)|].
    rewrite app_length in L1, L2. cbn in L1, L2.
    destruct (IH (length v1)) with (t := t) (u1 := v1) (u2 := v2) (st := st) (st1 := s1) (st2 := s2) as [-> ->]; auto; try lia.
    destruct (dstep_det _ _ _ _ _ _ _ _ S1 S2) as (-> & -> & ->). auto.
Qed.
(** The first step of a continuation. *)
Lemma first_step n : forall t u st st', length u = n -> begun t -> direct st t -> direct st' (t ++ u) -> u <> [] ->
  exists a b v st1, u = a :: b :: v /\ dstep st t a b st1 /\ direct st1 (t ++ [a; b]).
Proof.
  induction n as [n IH] using lt_wf_ind. intros t u st st' L B D D' NE.
  destruct (last_step _ _ _ D' B NE) as [(o & ->)|(v & a & b & s1 & -> & P & S1)]; [destruct (parity _ _ _ _ D D')|].
  destruct v as [|x v'] eqn:Ev.
  - cbn [app] in *. rewrite app_nil_r in *. rewrite (direct_same_stack _ _ _ P D) in S1. eauto 10.
  - rewrite <- Ev in *. rewrite app_length in L. cbn in L.
    destruct (IH (length v)) with (t := t) (u := v) (st := st) (st' := s1) as (a' & b' & v2 & s2 & -> & X); auto;
      [lia|subst v; discriminate|]. exists a', b', (v2 ++ [a; b]), s2. auto.
Qed.
End Link.
