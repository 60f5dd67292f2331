(** Lemmas for MtProps.v. *)
From Coq Require Import List ZArith Bool Lia Arith.
From Verif Require Import ProtoModel MtModel.
Import ListNotations.
Open Scope Z_scope.

Lemma put_length {A} : forall (l : list A) i x, length (put l i x) = length l.
Proof. induction l; destruct i; cbn; auto. Qed.
Lemma put_same {A} : forall (l : list A) i x y, nth_error l i = Some y -> nth_error (put l i x) i = Some x.
Proof. induction l; destruct i; cbn; intros x y H; try discriminate; auto. eapply IHl; eauto. Qed.
Lemma put_other {A} : forall (l : list A) i j x, i <> j -> nth_error (put l i x) j = nth_error l j.
Proof. induction l; destruct i, j; cbn; intros x H; auto; congruence. Qed.

(** ** What a step looks at *)

Section STEP.
Variables debug spurious : bool.

Ltac grind :=
  repeat match goal with
  | H : None = Some _ |- _ => discriminate
  | H : Some _ = Some _ |- _ => inversion H; subst; clear H
  | H : context [match ?x with _ => _ end] |- _ => destruct x eqn:?; try discriminate
  end.

Lemma host_log hd fail s s' : host_step debug spurious hd fail s = Some s' ->
  (length (log s) <= length (log s'))%nat /\ (hpc s = HUser -> (length (log s) < length (log s'))%nat).
Proof.
  unfold host_step. intros H. destruct (hpc s) eqn:E; grind; cbn [log]; rewrite ?app_length; cbn [length]; split; try lia; discriminate.
Qed.

Lemma host_ext hd hd' fail s s' : host_step debug spurious hd fail s = Some s' ->
  (hpc s = HUser -> hd (log s) = hd' (log s)) -> host_step debug spurious hd' fail s = Some s'.
Proof.
  intros H E. unfold host_step in *. destruct (hpc s) eqn:P; auto. rewrite <- E by reflexivity. exact H.
Qed.

Lemma child_log cd fail s s' : child_step debug cd fail s = Some s' ->
  (length (log s) <= length (log s'))%nat /\
  (forall d i b st, cpc s = CUser -> cstk s = KRun d i b :: st -> (length (log s) < length (log s'))%nat).
Proof.
  unfold child_step. intros H. destruct (cpc s) eqn:E; grind; cbn [log]; rewrite ?app_length; cbn [length]; split; try lia; try discriminate; intros; try congruence; lia.
Qed.

Lemma child_ext cd cd' fail s s' : child_step debug cd fail s = Some s' ->
  (forall d i b st, cpc s = CUser -> cstk s = KRun d i b :: st -> cd (log s) = cd' (log s)) -> child_step debug cd' fail s = Some s'.
Proof.
  intros H E. unfold child_step in *. destruct (cpc s) eqn:P; auto. destruct (cstk s) as [|[d i b|k|r] st] eqn:S; auto.
  rewrite <- (E d i b st) by reflexivity. exact H.
Qed.

Lemma reach_log hd cd s0 s : reach debug spurious hd cd s0 s -> (length (log s0) <= length (log s))%nat.
Proof.
  induction 1 as [|s s' R IH St]; [lia|]. inversion St as [f ? ? H|f ? ? H]; subst;
    [apply host_log in H|apply child_log in H]; destruct H; lia.
Qed.

(** Only the decisions taken at earlier moments matter. *)
Lemma reach_ext hd cd hd' cd' s0 s : reach debug spurious hd cd s0 s ->
  (forall l, (length l < length (log s))%nat -> hd l = hd' l /\ cd l = cd' l) ->
  reach debug spurious hd' cd' s0 s.
Proof.
  induction 1 as [|s s' R IH St]; intros A; [constructor|].
  inversion St as [f ? ? H|f ? ? H]; subst.
  - destruct (host_log _ _ _ _ H) as [L1 L2]. econstructor.
    + apply IH. intros l Hl. apply A. lia.
    + apply step_host with f. eapply host_ext; [exact H|]. intros P. apply A. auto.
  - destruct (child_log _ _ _ _ H) as [L1 L2]. econstructor.
    + apply IH. intros l Hl. apply A. lia.
    + apply step_child with f. eapply child_ext; [exact H|]. intros d i b st P Q. apply A. eauto.
Qed.

(** A host step looks at the sandbox only to see whether it is gone. *)
Lemma host_frame hd fail s s' pc st : host_step debug spurious hd fail s = Some s' -> gone pc = gone (cpc s) ->
  host_step debug spurious hd fail (Conf (sh s) (hpc s) (hstk s) pc st (reqs s) (resps s) (log s)) =
    Some (Conf (sh s') (hpc s') (hstk s') pc st (reqs s') (resps s') (log s')).
Proof.
  intros H G. unfold host_step in *. cbn [sh hpc hstk cpc cstk reqs resps log].
  destruct (hpc s) eqn:E; rewrite ?G; grind; reflexivity.
Qed.

Lemma child_frame cd fail s s' hp hst : child_step debug cd fail s = Some s' ->
  child_step debug cd fail (Conf (sh s) hp hst (cpc s) (cstk s) (reqs s) (resps s) (log s)) =
    Some (Conf (sh s') hp hst (cpc s') (cstk s') (reqs s') (resps s') (log s')).
Proof.
  intros H. unfold child_step in *. cbn [sh hpc hstk cpc cstk reqs resps log].
  destruct (cpc s) eqn:E; grind; reflexivity.
Qed.

Definition noload (st : list cframe) : Prop := loading st = false.
Lemma noload_app a b : noload (a ++ b) <-> noload a /\ noload b.
Proof. unfold noload, loading. rewrite existsb_app. apply orb_false_iff. Qed.

Lemma child_noload cd fail s s' : child_step debug cd fail s = Some s' -> noload (cstk s) -> noload (cstk s').
Proof.
  unfold child_step. intros H N. destruct (cpc s) eqn:E; grind; cbn [cstk]; auto;
    unfold noload, loading in *; cbn [existsb] in *; try discriminate; auto.
Qed.

(** A thread of the library moves as the main thread would with its stack below,
    as long as it does not return from its start function. *)
Lemma child_below cd fail sh0 pc st d0 i0 b0 d i b st0 rq rs lg s' :
  noload st -> noload st0 ->
  (pc = CUser -> st = [] -> cd lg <> CReturn) ->
  child_step debug cd fail (Conf sh0 HUser [] pc (st ++ [KRun d0 i0 b0]) rq rs lg) = Some s' ->
  exists st', cstk s' = st' ++ [KRun d0 i0 b0] /\ noload st' /\
  child_step debug cd fail (Conf sh0 HUser [] pc (st ++ KRun d i b :: st0) rq rs lg) =
    Some (Conf (sh s') HUser [] (cpc s') (st' ++ KRun d i b :: st0) (reqs s') (resps s') (log s')).
Proof.
  intros N N0 D H. unfold child_step in *. cbn [sh hpc hstk cpc cstk reqs resps log] in *.
  assert (LA : loading (st ++ [KRun d0 i0 b0]) = false).
  { apply noload_app. split; [exact N|reflexivity]. }
  assert (LB : loading (st ++ KRun d i b :: st0) = false).
  { apply noload_app. split; [exact N|]. unfold noload, loading in *. cbn. exact N0. }
  destruct pc; try discriminate.
  1: { destruct st as [|f st]; cbn [app] in *.
       - destruct (cd lg) eqn:C; [|exfalso; apply D; auto]. inversion H; subst; clear H. exists []. cbn. auto.
       - assert (Nst : noload st) by (unfold noload, loading in *; cbn in N; apply orb_false_iff in N; tauto).
         destruct f as [d1 i1 b1|k1|r1]; [|discriminate|cbn in N; discriminate].
         destruct (cd lg); inversion H; subst; clear H.
         + exists (KRun d1 i1 b1 :: st). cbn. auto.
         + exists st. cbn. auto. }
  all: try (rewrite LA in H; rewrite LB).
  all: try solve [grind; first [exists st; split; [reflexivity|split; [exact N|reflexivity]]
                               |eexists (_ :: st); split; [reflexivity|split; [exact N|reflexivity]]]].
  all: destruct st as [|f st]; cbn [app] in *; [|destruct f; try (cbn in N; discriminate)].
  all: try solve [grind; exists []; cbn; auto].
  all: try solve [grind; first [exists st; split; [reflexivity|split; [exact N|reflexivity]]
                               |eexists (_ :: st); split; [reflexivity|split; [exact N|reflexivity]]]].
Qed.
End STEP.

From Verif Require Import MtSpec.

Section TURNS.
Variables debug spurious : bool.
Variable hd : nat -> list event -> hact.
Variable cd : nat -> list event -> cact.

(** The one-threaded execution a state of [turns] corresponds to. *)
Inductive sim (s : mconf) (c : conf) : Prop :=
| Sim a w : 
    m_sh s = sh c -> m_reqs s = reqs c -> m_resps s = resps c -> m_log s = log c ->
    nth_error (m_hosts s) a = Some (hpc c, hstk c) ->
    (forall u h, u <> a -> nth_error (m_hosts s) u = Some h -> host_away h) ->
    (forall u k, u <> O -> u <> w -> nth_error (m_kids s) u = Some k -> kid_away k) ->
    noload (cstk c) ->
    (w = O /\ nth_error (m_kids s) O = Some (cpc c, cstk c) \/
     w <> O /\ exists d i b st st0, nth_error (m_kids s) O = Some (CUser, KRun d i b :: st0) /\
       nth_error (m_kids s) w = Some (cpc c, st ++ [KRun 0 0 0]) /\ cstk c = st ++ KRun d i b :: st0) ->
    sim s c.

Lemma sim_gone s c : sim s c -> existsb (fun k => gone (fst k)) (m_kids s) = gone (cpc c).
Proof.
  intros [a w _ _ _ _ _ _ K _ D].
  assert (G : forall u k, nth_error (m_kids s) u = Some k -> gone (fst k) = true -> gone (cpc c) = true).
  { intros u k N G. destruct (Nat.eq_dec u w) as [->|NE].
    - destruct D as [[-> D]|(_ & d & i & b & st & st0 & _ & D & _)]; rewrite D in N; injection N as <-; exact G.
    - destruct (Nat.eq_dec u 0) as [->|N0].
      + destruct D as [[-> _]|(_ & d & i & b & st & st0 & D & _)]; [congruence|]. rewrite D in N; injection N as <-. discriminate.
      + rewrite (K u k N0 NE N) in G. discriminate. }
  destruct (gone (cpc c)) eqn:E.
  - apply existsb_exists. destruct D as [[-> D]|(_ & d & i & b & st & st0 & _ & D & _)]; apply nth_error_In in D; eauto.
  - destruct (existsb _ _) eqn:X; [|reflexivity]. apply existsb_exists in X as (k & I & Gk).
    apply In_nth_error in I as (u & N). pose proof (G u k N Gk). congruence.
Qed.

Lemma sim_host s c t f s' : sim s c -> in_turn cd (TH t f) s -> mhost_step debug spurious hd t f s = Some s' ->
  exists c', host_step debug spurious (hd t) f c = Some c' /\ sim s' c'.
Proof.
  intros S T H. pose proof (sim_gone s c S) as SG. destruct S as [a w E1 E2 E3 E4 HA HO K N D].
  unfold mhost_step in H. destruct (host_gone (m_hosts s)); [discriminate|].
  destruct (nth_error (m_hosts s) t) as [[pc st]|] eqn:NT; [|discriminate].
  assert (P : pc = hpc c /\ st = hstk c).
  { destruct (Nat.eq_dec t a) as [->|NE]; [rewrite HA in NT; inversion NT; auto|].
    pose proof (HO t _ NE NT) as A1. pose proof (T a _ (not_eq_sym NE) HA) as A2. unfold host_away in *.
    inversion A1; inversion A2; auto. }
  destruct P as [-> ->].
  destruct (host_step debug spurious (hd t) f _) as [c1|] eqn:St; [|discriminate]. inversion H; subst; clear H.
  assert (G : gone (cpc c) = gone (process_state (m_kids s))).
  { unfold process_state. rewrite SG. destruct (gone (cpc c)); reflexivity. }
  pose proof (host_frame debug spurious (hd t) f _ _ (cpc c) (cstk c) St G) as F.
  cbn [sh hpc hstk cpc cstk reqs resps log] in F. rewrite E1, E2, E3, E4 in F.
  eexists. split; [destruct c; exact F|].
  apply (Sim _ _ t w); cbn [m_sh m_hosts m_kids m_reqs m_resps m_log sh hpc hstk cpc cstk reqs resps log]; auto.
  - eapply put_same; eauto.
  - intros u h NE NU. rewrite put_other in NU by congruence. exact (T u h NE NU).
Qed.

Lemma sim_child s c t f s' : sim s c -> in_turn cd (TC t f) s -> mchild_step debug cd t f s = Some s' ->
  exists c', child_step debug (cd t) f c = Some c' /\ sim s' c'.
Proof.
  intros [a w E1 E2 E3 E4 HA HO K N D] T H.
  unfold mchild_step in H. destruct (existsb _ _); [discriminate|].
  destruct (nth_error (m_kids s) t) as [[pc st]|] eqn:NT; [|discriminate].
  destruct (child_step debug (cd t) f _) as [c1|] eqn:St; [|discriminate]. inversion H; subst; clear H.
  destruct t as [|t]; cbn [in_turn] in T.
  - (* the main thread *)
    assert (P : pc = cpc c /\ st = cstk c).
    { destruct D as [[-> D]|(W & d & i & b & st1 & st0 & D1 & D2 & D3)]; [rewrite D in NT; inversion NT; auto|].
      pose proof (T w _ W D2) as A. unfold kid_away in A. rewrite D1 in NT. inversion NT; subst.
      inversion A as [[A1 A2]]. apply (app_inj_tail st1 []) in A2 as [-> _]. rewrite D3. auto. }
    destruct P as [-> ->].
    pose proof (child_frame debug (cd 0%nat) f _ _ (hpc c) (hstk c) St) as F.
    cbn [sh hpc hstk cpc cstk reqs resps log] in F. rewrite E1, E2, E3, E4 in F.
    eexists. split; [destruct c; exact F|].
    apply (Sim _ _ a 0%nat); cbn [m_sh m_hosts m_kids m_reqs m_resps m_log sh hpc hstk cpc cstk reqs resps log]; auto.
    + intros u k N0 _ NU. rewrite put_other in NU by congruence. exact (T u k N0 NU).
    + eapply child_noload; [exact St|]. exact N.
    + left. split; [reflexivity|]. eapply put_same; eauto.
  - (* another thread *)
    destruct T as (T1 & T2 & T3).
    assert (P : exists d i b st1 st0, nth_error (m_kids s) 0 = Some (CUser, KRun d i b :: st0) /\
       pc = cpc c /\ st = st1 ++ [KRun 0 0 0] /\ cstk c = st1 ++ KRun d i b :: st0).
    { destruct D as [[-> D]|(W & d & i & b & st1 & st0 & D1 & D2 & D3)].
      - destruct (T1 _ D) as (d & i & b & st0 & X). inversion X as [[X1 X2]].
        assert (Sn : S t <> 0%nat) by discriminate. pose proof (K _ _ Sn Sn NT) as A. unfold kid_away in A. inversion A; subst.
        exists d, i, b, [], st0. rewrite D, X2, X1. auto.
      - destruct (Nat.eq_dec (S t) w) as [<-|NE].
        + rewrite D2 in NT. inversion NT; subst. exists d, i, b, st1, st0. auto.
        + assert (Sn : S t <> 0%nat) by discriminate. pose proof (K _ _ Sn NE NT) as A. pose proof (T2 _ _ W (not_eq_sym NE) D2) as B.
          unfold kid_away in *. inversion A; inversion B as [[B1 B2]]; subst. apply (app_inj_tail st1 []) in B2 as [-> _].
          exists d, i, b, [], st0. rewrite B1. auto. }
    destruct P as (d & i & b & st1 & st0 & D1 & -> & -> & CS).
    rewrite CS in N. apply noload_app in N as [N1 N2].
    assert (N3 : noload st0) by (unfold noload, loading in *; cbn in N2; exact N2).
    assert (NR : cpc c = CUser -> st1 = [] -> cd (S t) (m_log s) <> CReturn).
    { intros X ->. apply T3. rewrite <- X. exact NT. }
    destruct (child_below debug (cd (S t)) f _ _ _ _ _ _ d i b st0 _ _ _ _ N1 N3 NR St) as (st' & S1 & S2 & S3).
    apply (child_frame debug (cd (S t)) f _ _ (hpc c) (hstk c)) in S3.
    cbn [sh hpc hstk cpc cstk reqs resps log] in S3. rewrite E1, E2, E3, E4, <- CS in S3.
    eexists. split; [destruct c; exact S3|].
    apply (Sim _ _ a (S t)); cbn [m_sh m_hosts m_kids m_reqs m_resps m_log sh hpc hstk cpc cstk reqs resps log]; auto.
    + intros u k N0 NE NU. rewrite put_other in NU by congruence. exact (T2 u k N0 NE NU).
    + apply noload_app. split; [exact S2|]. unfold noload, loading in *. cbn. exact N3.
    + right. split; [discriminate|]. exists d, i, b, st', st0. split; [rewrite put_other by discriminate; exact D1|].
      split; [|reflexivity]. rewrite <- S1. eapply put_same; eauto.
Qed.

Lemma sim_turns n m s : (1 <= n)%nat -> turns debug spurious hd cd (midle n m) s ->
  exists hd1 cd1 c, (forall l, exists t, hd1 l = hd t l) /\ (forall l, exists t, cd1 l = cd t l) /\
    reach debug spurious hd1 cd1 idle c /\ sim s c.
Proof.
  intros L. induction 1 as [|s x s' R (hd1 & cd1 & c & CH & CC & RC & SC) T St].
  - exists (hd 0%nat), (cd 0%nat), idle. split; [eauto|]. split; [eauto|]. split; [constructor|].
    destruct n as [|n]; [lia|]. apply (Sim _ _ 0%nat 0%nat); cbn [midle idle m_sh m_hosts m_kids m_reqs m_resps m_log sh hpc hstk cpc cstk reqs resps log]; auto.
    + intros [|u] h NE NU; [congruence|]. cbn in NU. apply nth_error_In, repeat_spec in NU. exact NU.
    + intros [|u] k N0 _ NU; [congruence|]. cbn in NU. apply nth_error_In, repeat_spec in NU. exact NU.
    + reflexivity.
  - destruct x as [t f|t f]; cbn [mstep] in St.
    + destruct (sim_host _ _ _ _ _ SC T St) as (c' & H & SC').
      exists (fun l => if Nat.eqb (length l) (length (log c)) then hd t l else hd1 l), cd1, c'.
      split; [intros l; destruct (Nat.eqb _ _); eauto|]. split; [exact CC|]. split; [|exact SC'].
      econstructor.
      * eapply reach_ext; [exact RC|]. intros l Hl. split; [|reflexivity].
        destruct (Nat.eqb_spec (length l) (length (log c))); [lia|reflexivity].
      * apply step_host with f. eapply host_ext; [exact H|]. intros _. rewrite Nat.eqb_refl. reflexivity.
    + destruct (sim_child _ _ _ _ _ SC T St) as (c' & H & SC').
      exists hd1, (fun l => if Nat.eqb (length l) (length (log c)) then cd t l else cd1 l), c'.
      split; [exact CH|]. split; [intros l; destruct (Nat.eqb _ _); eauto|]. split; [|exact SC'].
      econstructor.
      * eapply reach_ext; [exact RC|]. intros l Hl. split; [reflexivity|].
        destruct (Nat.eqb_spec (length l) (length (log c))); [lia|reflexivity].
      * apply step_child with f. eapply child_ext; [exact H|]. intros. rewrite Nat.eqb_refl. reflexivity.
Qed.
End TURNS.
