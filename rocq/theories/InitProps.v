(** The claimed theorems about one-time initialisation (C44). *)
From Coq Require Import List Arith Bool Lia.
From Verif Require Import InitModel.
Import ListNotations.

Lemma upd_nth {A} : forall (l : list A) i j v,
  nth_error (upd i v l) j = if Nat.eqb i j then (match nth_error l j with Some _ => Some v | None => None end) else nth_error l j.
Proof. induction l as [|x l IH]; intros [|i] [|j] v; cbn; auto. destruct (Nat.eqb i j); auto. Qed.
Lemma run_app a b s : run (a ++ b) s = let (s1, x) := run a s in let (s2, y) := run b s1 in (s2, x ++ y).
Proof.
  revert s. induction a as [|i a IH]; intros s; cbn; [destruct (run b s); auto|].
  destruct (step i s) as [s1 x]. rewrite IH. destruct (run a s1) as [s2 y]. destruct (run b s2). rewrite app_assoc. auto.
Qed.

(** Once the flag is set, the pagemap is made and nobody is on the way to make
    another, it stays so, and everybody uses that one. *)
Definition settled (s : st) : Prop := flag s = true /\ made s = 1 /\ forall j, nth_error (threads s) j <> Some Store /\ nth_error (threads s) j <> Some Init.
Lemma settled_step i s : settled s -> settled (fst (step i s)) /\ forall o, In o (snd (step i s)) -> o = Used (Some 0).
Proof.
  intros (F & M & T). destruct (T i) as [T1 T2]. unfold step.
  assert (U : forall v, v <> Store -> v <> Init -> forall j, nth_error (upd i v (threads s)) j <> Some Store /\ nth_error (upd i v (threads s)) j <> Some Init).
  { intros v V1 V2 j. rewrite upd_nth. destruct (Nat.eqb i j); [|apply T]. destruct (nth_error (threads s) j); split; congruence. }
  destruct (nth_error (threads s) i) as [[]|]; try congruence; cbn.
  - rewrite F. split; [repeat split; auto; apply U; discriminate|intros o []].
  - split; [repeat split; auto; apply U; discriminate|]. rewrite M. intros o [<-|[]]. auto.
  - split; [repeat split; auto; apply T|intros o []].
  - split; [repeat split; auto; apply T|intros o []].
Qed.
Lemma settled_run sched : forall s, settled s -> settled (fst (run sched s)) /\ forall o, In o (snd (run sched s)) -> o = Used (Some 0).
Proof.
  induction sched as [|i r IH]; intros s H; cbn; [split; auto; intros o []|].
  destruct (settled_step i s H) as [H1 H2]. destruct (step i s) as [s1 x]. cbn in H1, H2. specialize (IH s1 H1). destruct (run r s1) as [s2 y].
  cbn in *. split; [tauto|]. intros o X. apply in_app_or in X. destruct X; auto. apply IH. auto.
Qed.
Lemma repeat_nth {A} (a : A) n j b : nth_error (repeat a n) j = Some b -> b = a.
Proof. intros H. apply nth_error_In in H. apply repeat_spec in H. auto. Qed.
(** C44. If one thread gets through ensure_initialised before any other starts a
    Library, then whatever the other threads do afterwards, exactly one pagemap
    is made and every Library uses it. *)
Theorem initialised_once_if_first_alone n i sched :
  i < n ->
  let (s, outs) := run ([i; i; i] ++ sched) (init n) in
  made s = 1 /\ (forall k, In (Used k) outs -> k = Some 0) /\ count_occ (fun a b : bool => bool_dec a b) (map (fun o => match o with Made => true | _ => false end) outs) true = 1.
Proof.
  intros L. rewrite run_app.
  assert (N : nth_error (repeat Load n) i = Some Load) by (destruct (nth_error (repeat Load n) i) as [p|] eqn:E;
    [rewrite (repeat_nth _ _ _ _ E); auto|apply nth_error_None in E; rewrite repeat_length in E; lia]).
  assert (E3 : run [i; i; i] (init n) = (St true 1 (upd i Use (upd i Init (upd i Store (repeat Load n)))), [Made])).
  { cbn [run]. unfold step at 1, init. cbn [threads]. rewrite N. cbn [flag made].
    unfold step at 1. cbn [threads flag made]. rewrite upd_nth, Nat.eqb_refl, N.
    unfold step. cbn [threads flag made]. rewrite !upd_nth, Nat.eqb_refl, N. reflexivity. }
  rewrite E3. assert (ST : settled (St true 1 (upd i Use (upd i Init (upd i Store (repeat Load n)))))).
  { repeat split; auto; cbn; rewrite !upd_nth; destruct (Nat.eqb_spec i j) as [<-|NE]; rewrite ?N; try discriminate;
      intros X; apply repeat_nth in X; discriminate. }
  destruct (settled_run sched _ ST) as [(_ & M & _) O]. destruct (run sched _) as [s outs]. cbn in M, O. split; auto. cbn [app]. split.
  - intros k [X|X]; [discriminate|]. apply O in X. congruence.
  - cbn. f_equal. clear -O. induction outs as [|o outs IH]; auto. cbn. rewrite (O o) by (left; auto). cbn. apply IH. intros. apply O. right. auto.
Qed.

(** C44, limit. Any number of threads can each make a pagemap, the last one
    replacing the others. *)
Lemma upd_app {A} (a : list A) x v b : upd (length a) v (a ++ x :: b) = a ++ v :: b.
Proof. induction a; cbn; congruence. Qed.
Lemma nth_mid {A} (a : list A) x b : nth_error (a ++ x :: b) (length a) = Some x.
Proof. rewrite nth_error_app2, Nat.sub_diag by auto. reflexivity. Qed.
Lemma iter_S {A} n (f : A -> A) x : Nat.iter (S n) f x = Nat.iter n f (f x).
Proof. induction n as [|n IH]; auto. cbn in *. rewrite IH. auto. Qed.
Lemma iter_O {A} n (f : A -> A) x : Nat.iter (S n) f x = f (Nat.iter n f x).
Proof. reflexivity. Qed.
Lemma iter_pair n (g : nat -> nat) f k : Nat.iter n (fun x : bool * nat => (fst x, g (snd x))) (f, k) = (f, Nat.iter n g k).
Proof. induction n as [|n IH]; [reflexivity|]. rewrite !iter_O, IH. reflexivity. Qed.
Lemma iter_id n : Nat.iter n (fun k : nat => k) 0 = 0.
Proof. induction n as [|n IH]; [reflexivity|]. rewrite iter_O. auto. Qed.
Lemma iter_t n : snd (Nat.iter n (fun x : bool * nat => (true, snd x)) (false, 0)) = 0.
Proof. induction n as [|n IH]; [reflexivity|]. rewrite iter_O. auto. Qed.
Lemma iter_S0 n : Nat.iter n S 0 = n.
Proof. induction n as [|n IH]; [reflexivity|]. rewrite iter_O. auto. Qed.
Lemma phase p q (eff : bool -> nat -> bool * nat) (o : list out) :
  forall n m f k, (forall f k a b, (f = false \/ p <> Load) -> step (length a) (St f k (a ++ p :: b)) = (St (fst (eff f k)) (snd (eff f k)) (a ++ q :: b), o)) ->
  (p = Load -> f = false /\ forall k, fst (eff false k) = false) ->
  run (seq m n) (St f k (repeat q m ++ repeat p n)) =
    (St (fst (Nat.iter n (fun x => eff (fst x) (snd x)) (f, k))) (snd (Nat.iter n (fun x => eff (fst x) (snd x)) (f, k))) (repeat q (m + n)), concat (repeat o n)).
Proof.
  induction n as [|n IH]; intros m f k H HL; [cbn; rewrite app_nil_r, Nat.add_0_r; auto|].
  cbn [seq run repeat]. pose proof (H f k (repeat q m) (repeat p n)) as HS. rewrite repeat_length in HS. rewrite HS.
  2:{ destruct p; auto; try (right; discriminate). left. apply HL. auto. }
  assert (RS : repeat q m ++ q :: repeat p n = repeat q (S m) ++ repeat p n).
  { change (q :: repeat p n) with ([q] ++ repeat p n). rewrite app_assoc. f_equal. rewrite <- (repeat_cons m q). reflexivity. }
  rewrite RS, (IH (S m)); auto.
  - f_equal. assert (IT : Nat.iter n (fun x => eff (fst x) (snd x)) (fst (eff f k), snd (eff f k)) = Nat.iter (S n) (fun x => eff (fst x) (snd x)) (f, k)).
    { rewrite iter_S. cbn [fst snd]. rewrite <- surjective_pairing. reflexivity. }
    rewrite IT. f_equal. rewrite Nat.add_succ_r. reflexivity.
  - intros E. destruct (HL E) as [-> HF]. split; auto.
Qed.
Theorem initialised_once_refuted n : exists sched, snd (run sched (init n)) = repeat Made n /\ made (fst (run sched (init n))) = n.
Proof.
  exists (seq 0 n ++ seq 0 n ++ seq 0 n). rewrite run_app. unfold init.
  pose proof (phase Load Store (fun f k => (f, k)) [] n 0 false 0) as P1. cbn [repeat app Nat.add] in P1. rewrite P1; clear P1.
  2:{ intros f k a b [->|X]; [|congruence]. unfold step. cbn [threads flag made]. rewrite nth_mid, upd_app. reflexivity. }
  2:{ auto. }
  rewrite run_app. rewrite (iter_pair n (fun k => k)), iter_id. cbn [fst snd].
  pose proof (phase Store Init (fun f k => (true, k)) [] n 0 false 0) as P2. cbn [repeat app Nat.add] in P2. rewrite P2; clear P2.
  2:{ intros f k a b _. unfold step. cbn [threads flag made]. rewrite nth_mid, upd_app. reflexivity. }
  2:{ discriminate. }
  cbn [fst snd]. rewrite iter_t.
  set (f := fst _). pose proof (phase Init Use (fun f k => (f, S k)) [Made] n 0 f 0) as P3. cbn [repeat app Nat.add] in P3. rewrite P3; clear P3.
  2:{ intros g k a b _. unfold step. cbn [threads flag made]. rewrite nth_mid, upd_app. reflexivity. }
  2:{ discriminate. }
  rewrite (iter_pair n S), iter_S0. cbn [fst snd made].
  assert (C0 : concat (repeat (@nil out) n) = []) by (clear; induction n; cbn; auto).
  assert (C1 : concat (repeat [Made] n) = repeat Made n) by (clear; induction n; cbn; congruence).
  rewrite C0, C1. split; auto.
Qed.
(** C44, limit. A thread can pass ensure_initialised and use the pagemap before
    there is one. *)
Theorem initialised_before_use_refuted n : 2 <= n -> exists sched, In (Used None) (snd (run sched (init n))).
Proof.
  intros L. exists [0; 0; 1; 1]. destruct n as [|[|n]]; [lia|lia|]. cbn. auto.
Qed.
(** C44, limit. A thread can register its Library's memory in a pagemap that
    another thread then replaces. *)
Theorem registration_survives_refuted n : 2 <= n ->
  exists sched, let (s, outs) := run sched (init n) in In (Used (Some 0)) outs /\ made s = 2.
Proof. intros L. exists [0; 1; 0; 0; 0; 1; 1]. destruct n as [|[|n]]; [lia|lia|]. cbn. auto. Qed.

Example init_ex : run [0;0;0;1;1;0;2;2] (init 3) = (St true 1 [Done; Done; Done], [Made; Used (Some 0); Used (Some 0); Used (Some 0)]).
Proof. reflexivity. Qed.

Print Assumptions initialised_once_if_first_alone.
Print Assumptions initialised_once_refuted.
Print Assumptions initialised_before_use_refuted.
Print Assumptions registration_survives_refuted.
