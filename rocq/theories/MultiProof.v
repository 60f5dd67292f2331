(** Lemmas for MultiProps.v. *)
From Coq Require Import List ZArith Bool Lia Arith.
From Verif Require Import ProtoModel ThrowModel ThrowProof HostileModel CrashModel MtProof MultiModel MultiSpec.
Import ListNotations.

Lemma event_eq_dec (a b : event) : {a = b} + {a <> b}.
Proof. decide equality; apply Z.eq_dec. Defined.

Lemma events_app i a b : events_of i (a ++ b) = events_of i a ++ events_of i b.
Proof. apply flat_map_app. Qed.
Lemma events_own i l : events_of i (map (pair i) l) = l.
Proof. induction l as [|e l IH]; [reflexivity|]. cbn. rewrite Nat.eqb_refl. cbn. f_equal. exact IH. Qed.
Lemma events_other i j l : i <> j -> events_of i (map (pair j) l) = [].
Proof. intros N. induction l as [|e l IH]; [reflexivity|]. cbn. destruct (Nat.eqb_spec j i); [congruence|exact IH]. Qed.

Section S.
Variables debug spurious : bool.

(** What a step looks at. *)
Lemma xhost_grows hd fail s s' : xhost_step debug spurious hd fail s = Some s' ->
  (length (log s) <= length (log s'))%nat /\ (hpc s = HUser -> (length (log s) < length (log s'))%nat).
Proof.
  unfold xhost_step. intros H.
  destruct (hpc s) eqn:P; try (apply host_log in H; rewrite P in H; exact H).
  destruct (hd (log s)) eqn:D; [apply host_log in H; rewrite P in H; exact H|].
  destruct (hstk s) eqn:K; [apply host_log in H; rewrite P in H; exact H|].
  injection H as <-. cbn [log]. rewrite app_length. cbn. split; intros; lia.
Qed.
Lemma xhost_ext hd hd' fail s s' : xhost_step debug spurious hd fail s = Some s' ->
  (hpc s = HUser -> hd (log s) = hd' (log s)) -> xhost_step debug spurious hd' fail s = Some s'.
Proof.
  intros H E. unfold xhost_step in *.
  destruct (hpc s) eqn:P; try (eapply host_ext; [exact H|intros X; congruence]).
  specialize (E eq_refl).
  assert (EP : plain hd (log s) = plain hd' (log s)) by (unfold plain; rewrite E; reflexivity).
  rewrite <- E. destruct (hd (log s)); [eapply host_ext; [exact H|intros _; exact EP]|].
  destruct (hstk s); [eapply host_ext; [exact H|intros _; exact EP]|exact H].
Qed.
Lemma host_extends hd fail s s' : host_step debug spurious hd fail s = Some s' -> exists y, log s' = log s ++ y.
Proof.
  unfold host_step. intros H. destruct (hpc s);
    repeat match goal with
    | H : None = Some _ |- _ => discriminate
    | H : Some _ = Some _ |- _ => inversion H; subst; clear H
    | H : context [match ?x with _ => _ end] |- _ => destruct x; try discriminate
    end; cbn [log]; first [exists []; rewrite app_nil_r; reflexivity|eexists; reflexivity].
Qed.
Lemma xhost_extends hd fail s s' : xhost_step debug spurious hd fail s = Some s' -> exists y, log s' = log s ++ y.
Proof.
  unfold xhost_step. intros H. destruct (hpc s); try (eapply host_extends; exact H).
  destruct (hd (log s)); [eapply host_extends; exact H|]. destruct (hstk s); [eapply host_extends; exact H|].
  injection H as <-. cbn. eauto.
Qed.
Lemma child_extends cd fail s s' : child_step debug cd fail s = Some s' -> exists y, log s' = log s ++ y.
Proof.
  unfold child_step. intros H. destruct (cpc s);
    repeat match goal with
    | H : None = Some _ |- _ => discriminate
    | H : Some _ = Some _ |- _ => inversion H; subst; clear H
    | H : context [match ?x with _ => _ end] |- _ => destruct x; try discriminate
    end; cbn [log]; first [exists []; rewrite app_nil_r; reflexivity|eexists; reflexivity].
Qed.

Lemma xhost_keeps hd fail s s' : xhost_step debug spurious hd fail s = Some s' -> cpc s' = cpc s.
Proof.
  assert (K : forall h, host_step debug spurious h fail s = Some s' -> cpc s' = cpc s).
  { intros h H. unfold host_step in H. destruct (hpc s);
    repeat match goal with
    | H : None = Some _ |- _ => discriminate
    | H : Some _ = Some _ |- _ => inversion H; subst; clear H
    | H : context [match ?x with _ => _ end] |- _ => destruct x; try discriminate
    end; reflexivity. }
  unfold xhost_step. intros H. destruct (hpc s); try (eapply K; exact H).
  destruct (hd (log s)); [eapply K; exact H|]. destruct (hstk s); [eapply K; exact H|]. injection H as <-. reflexivity.
Qed.
Lemma child_keeps cd fail s s' : child_step debug cd fail s = Some s' -> hpc s' = hpc s /\ hstk s' = hstk s.
Proof.
  unfold child_step. intros H. destruct (cpc s);
    repeat match goal with
    | H : None = Some _ |- _ => discriminate
    | H : Some _ = Some _ |- _ => inversion H; subst; clear H
    | H : context [match ?x with _ => _ end] |- _ => destruct x; try discriminate
    end; split; reflexivity.
Qed.

Lemma crashes_ext hd hd' cd s0 s : crashes debug spurious hd cd s0 s ->
  (forall l, (length l < length (log s))%nat -> hd l = hd' l) -> crashes debug spurious hd' cd s0 s.
Proof.
  induction 1 as [|s s' R IH St|s R IH G]; intros A; [constructor| |].
  - inversion St as [f ? ? H|f ? ? H]; subst.
    + destruct (xhost_grows _ _ _ _ H) as [L1 L2]. econstructor.
      * apply IH. intros l Hl. apply A. lia.
      * apply xstep_host with f. eapply xhost_ext; [exact H|]. intros P. apply A. auto.
    + destruct (child_extends _ _ _ _ H) as [y L]. econstructor.
      * apply IH. intros l Hl. apply A. rewrite L, app_length. lia.
      * apply xstep_child with f. exact H.
  - apply crashes_dies; [apply IH; exact A|exact G].
Qed.
Lemma xhostile_ext hd hd' s0 sent got s : xhostile debug spurious hd s0 sent got s ->
  (forall l, (length l < length (log s))%nat -> hd l = hd' l) -> xhostile debug spurious hd' s0 sent got s.
Proof.
  induction 1 as [|sent got fail s s' R IH H|sent got s v new n R IH G|sent got s R IH G]; intros A; [constructor| | |].
  - destruct (xhost_grows _ _ _ _ H) as [L1 L2]. econstructor.
    + apply IH. intros l Hl. apply A. lia.
    + eapply xhost_ext; [exact H|]. intros P. apply A. auto.
  - constructor; [apply IH; exact A|exact G].
  - constructor; [apply IH; exact A|exact G].
Qed.

(** [hd] with one decision changed. *)
Definition at_log (l : list event) (a : xact) (hd : list event -> xact) (x : list event) : xact :=
  if list_eq_dec event_eq_dec x l then a else hd x.
Lemma at_log_here l a hd : at_log l a hd l = a.
Proof. unfold at_log. destruct (list_eq_dec event_eq_dec l l); congruence. Qed.
Lemma at_log_before l a hd x : (length x < length l)%nat -> hd x = at_log l a hd x.
Proof. unfold at_log. intros L. destruct (list_eq_dec event_eq_dec x l); [subst; lia|reflexivity]. Qed.

Variable honest : nat -> bool.
Variable host_do : nat -> list (nat * event) -> xact.
Variable child_do : nat -> list event -> cact.
Variable ks : nat -> list Z.
Notation reaches := (mreach debug spurious honest host_do child_do (mfresh ks)).
Notation multi_step := (mstep debug spurious honest host_do child_do).

Lemma acts_at i hd l h : acts_as host_do i hd -> events_of i h = l -> acts_as host_do i (at_log l (host_do i h) hd).
Proof. intros A E x. unfold at_log. destruct (list_eq_dec event_eq_dec x l); [subst; eauto|apply A]. Qed.
Lemma acts_default i : acts_as host_do i (fun l => host_do i (map (pair i) l)).
Proof. intros l. exists (map (pair i) l). split; [apply events_own|reflexivity]. Qed.

Lemma mstep_extends i m m' : multi_step i m m' -> exists s y, m' = put i s m /\ log s = log (lib m i) ++ y.
Proof.
  destruct 1 as [fail s' NA H|fail s' Ho H|G|v new n Ho G].
  - apply xhost_extends in H as [y H]. eauto.
  - apply child_extends in H as [y H]. eauto.
  - exists (child_dies (lib m i)), []. rewrite app_nil_r. auto.
  - exists (meddle v new n (lib m i)), []. rewrite app_nil_r. auto.
Qed.
Lemma put_same i s m : lib (put i s m) i = s.
Proof. cbn. now rewrite Nat.eqb_refl. Qed.
Lemma put_other i j s m : j <> i -> lib (put i s m) j = lib m j.
Proof. intros N. cbn. destruct (Nat.eqb_spec j i); [contradiction|reflexivity]. Qed.
Lemma put_hist i s m y : log s = log (lib m i) ++ y -> hist (put i s m) = hist m ++ map (pair i) y.
Proof. intros E. cbn. rewrite E, skipn_app, skipn_all, Nat.sub_diag. reflexivity. Qed.

Lemma logs_agree m : reaches m -> forall i, log (lib m i) = events_of i (hist m).
Proof.
  induction 1 as [|m j m' R IH St]; intros i; [reflexivity|].
  apply mstep_extends in St as (s & y & -> & E). rewrite (put_hist _ _ _ _ E), events_app.
  destruct (Nat.eq_dec i j) as [->|N].
  - rewrite put_same, events_own, E, IH. reflexivity.
  - rewrite put_other, events_other, app_nil_r, IH by auto. reflexivity.
Qed.

Lemma honest_view i m : honest i = true -> reaches m ->
  exists hd, acts_as host_do i hd /\ crashes debug spurious hd (child_do i) (fresh (ks i)) (lib m i).
Proof.
  intros Ho. induction 1 as [|m j m' R IH St].
  - exists (fun l => host_do i (map (pair i) l)). split; [apply acts_default|constructor].
  - destruct IH as (hd & A & C). destruct (Nat.eq_dec i j) as [<-|N].
    2:{ apply mstep_extends in St as (s & y & -> & E). rewrite put_other by auto. eauto. }
    pose proof (logs_agree _ R i) as L.
    destruct St as [fail s' NA H|fail s' _ H|G|v new n Hn G]; rewrite ?put_same; [| | |congruence].
    + exists (at_log (log (lib m i)) (host_do i (hist m)) hd). split; [apply acts_at; auto|].
      eapply crashes_step; [eapply crashes_ext; [exact C|intros l; apply at_log_before]|].
      apply xstep_host with fail. eapply xhost_ext; [exact H|]. intros _. rewrite at_log_here. reflexivity.
    + exists hd. split; [exact A|]. eapply crashes_step; [exact C|]. apply xstep_child with fail. exact H.
    + exists hd. split; [exact A|]. apply crashes_dies; assumption.
Qed.
Lemma hostile_view i m : honest i = false -> reaches m ->
  exists hd sent got, acts_as host_do i hd /\ xhostile debug spurious hd (fresh (ks i)) sent got (lib m i).
Proof.
  intros Ho. induction 1 as [|m j m' R IH St].
  - exists (fun l => host_do i (map (pair i) l)), [], []. split; [apply acts_default|constructor].
  - destruct IH as (hd & sent & got & A & C). destruct (Nat.eq_dec i j) as [<-|N].
    2:{ apply mstep_extends in St as (s & y & -> & E). rewrite put_other by auto. eauto. }
    pose proof (logs_agree _ R i) as L.
    destruct St as [fail s' NA H|fail s' Hn H|G|v new n _ G]; rewrite ?put_same; [|congruence| |].
    + exists (at_log (log (lib m i)) (host_do i (hist m)) hd), sent, got. split; [apply acts_at; auto|].
      eapply xhostile_host; [eapply xhostile_ext; [exact C|intros l; apply at_log_before]|].
      eapply xhost_ext; [exact H|]. intros _. rewrite at_log_here. reflexivity.
    + exists hd, sent, got. split; [exact A|]. apply xhostile_dies; assumption.
    + exists hd, (sent ++ new), (got ++ firstn n (resps (lib m i))). split; [exact A|]. apply xhostile_move; assumption.
Qed.

(** One library moves, the others stand still. *)
Lemma alone_lift i hd s : honest i = true ->
  forall m, (forall j, hpc (lib m j) <> HAborted) ->
  (forall x, firstn (length (log (lib m i))) x = log (lib m i) ->
     hd x = host_do i (hist m ++ map (pair i) (skipn (length (log (lib m i))) x))) ->
  crashes debug spurious hd (child_do i) (lib m i) s ->
  exists m', mreach debug spurious honest host_do child_do m m' /\ lib m' i = s /\
    (forall j, j <> i -> lib m' j = lib m j) /\
    exists y, log s = log (lib m i) ++ y /\ hist m' = hist m ++ map (pair i) y.
Proof.
  intros Ho m NA HD. induction 1 as [|s s' C IH St|s C IH G].
  - exists m. repeat split; [constructor|]. exists []. rewrite !app_nil_r. auto.
  - destruct IH as (m' & R & E & O & y & Ly & Hy).
    assert (Fin : forall z, log s' = log s ++ z -> multi_step i m' (put i s' m') ->
      exists m'', mreach debug spurious honest host_do child_do m m'' /\ lib m'' i = s' /\
        (forall j, j <> i -> lib m'' j = lib m j) /\
        exists y, log s' = log (lib m i) ++ y /\ hist m'' = hist m ++ map (pair i) y).
    { intros z Lz Sz. exists (put i s' m'). split; [econstructor; eauto|]. split; [apply put_same|].
      split; [intros j N; rewrite put_other by auto; auto|]. exists (y ++ z). split; [rewrite Lz, Ly, app_assoc; reflexivity|].
      rewrite (put_hist _ _ _ z) by (rewrite E; exact Lz). rewrite Hy, map_app, app_assoc. reflexivity. }
    inversion St as [f a b H|f a b H]; subst a b.
    + destruct (xhost_extends _ _ _ _ H) as [z Lz]. apply (Fin z Lz). apply mstep_host with f.
      * intros j. destruct (Nat.eq_dec j i) as [->|N]; [|rewrite O by auto; apply NA].
        rewrite E. intros X. unfold xhost_step, host_step in H. rewrite X in H. discriminate.
      * rewrite E. eapply xhost_ext; [exact H|]. intros _. rewrite HD.
        -- rewrite Hy, Ly, skipn_app, skipn_all, Nat.sub_diag. reflexivity.
        -- rewrite Ly, firstn_app, firstn_all, Nat.sub_diag, app_nil_r. reflexivity.
    + destruct (child_extends _ _ _ _ H) as [z Lz]. apply (Fin z Lz). apply mstep_child with f; [exact Ho|]. rewrite E. exact H.
  - destruct IH as (m' & R & E & O & y & Ly & Hy). exists (put i (child_dies s) m').
    split; [econstructor; [exact R|]; subst s; apply mstep_dies; exact G|]. split; [apply put_same|].
    split; [intros j N; rewrite put_other by auto; auto|]. exists y. split; [exact Ly|].
    rewrite (put_hist _ _ _ []) by (rewrite E, app_nil_r; reflexivity). rewrite app_nil_r. exact Hy.
Qed.
End S.
