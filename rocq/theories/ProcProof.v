(** Proofs about process status. *)
From Coq Require Import List ZArith Bool Lia Arith.
From Verif Require Import ProcModel ProcSpec.
Import ListNotations.
Open Scope Z_scope.

Lemma wexit_div raw : wexit raw = raw / 256 mod 256.
Proof.
  unfold wexit. change 255 with (Z.ones 8). rewrite Z.land_ones by lia.
  rewrite Z.shiftr_div_pow2 by lia. reflexivity.
Qed.

Lemma upd_length {A} (l : list A) i a : length (upd l i a) = length l.
Proof.
  unfold upd. rewrite app_length, firstn_length. pose proof (skipn_length i l).
  destruct (skipn i l); cbn in *; lia.
Qed.
Lemma upd_nth {A} (l : list A) i a j :
  nth_error (upd l i a) j = if Nat.eqb i j then (if (i <? length l)%nat then Some a else None) else nth_error l j.
Proof.
  revert l j. induction i as [|i IH]; intros [|x t] [|j]; cbn; auto.
  - destruct (Nat.eqb i j); reflexivity.
  - specialize (IH t j). unfold upd in IH. rewrite IH. reflexivity.
Qed.

Lemma ends_length i raw w : length (ends i raw w) = length w.
Proof. revert i. induction w as [|x w IH]; intros [|i]; cbn; auto. Qed.
Lemma ends_state i raw w j : (j < length w)%nat ->
  state_of (ends i raw w) j
  = if Nat.eqb j i then Some (match state_of w j with None => raw | Some r => r end) else state_of w j.
Proof.
  unfold state_of. revert i j. induction w as [|x w IH]; intros [|i] [|j] H; cbn in *; try lia; auto.
  apply IH. lia.
Qed.

Lemma nodup_snoc {A} (l : list A) a : NoDup l -> ~ In a l -> NoDup (l ++ [a]).
Proof.
  induction l as [|x t IH]; cbn; intros N H; [constructor; auto|]. inversion N; subst.
  constructor; [|apply IH; auto]. rewrite in_app_iff. cbn. intros [X|[X|[]]]; subst; auto.
Qed.
Lemma in_reaps t u : In u (reaps t) -> exists i, In (TReap i u) t.
Proof.
  unfold reaps. rewrite in_flat_map. intros [c [H X]]. destruct c; cbn in X; intuition subst. eauto.
Qed.

Lemma find_pid ks k : NoDup (map kpid ks) -> In k ks -> find (fun x => kpid x =? kpid k) ks = Some k.
Proof.
  induction ks as [|x t IH]; cbn; intros N I; [contradiction|]. inversion N; subst.
  destruct I as [->|I].
  - rewrite Z.eqb_refl. auto.
  - destruct (Z.eqb_spec (kpid x) (kpid k)) as [E|E]; [|auto].
    exfalso. apply H1. rewrite E. apply in_map. auto.
Qed.

Lemma reap_in u ks k : In k (reap u ks) <-> In k ks /\ uid k <> u.
Proof.
  unfold reap. rewrite filter_In. destruct (Nat.eqb_spec (uid k) u); cbn; intuition congruence.
Qed.
Lemma nodup_filter_map {A B} (f : A -> B) p l : NoDup (map f l) -> NoDup (map f (filter p l)).
Proof.
  induction l as [|x t IH]; cbn; intros N; auto. inversion N; subst.
  destruct (p x); cbn; auto. constructor; auto. intros H. apply H1.
  apply in_map_iff in H as [y [E Hy]]. apply filter_In in Hy as [Hy _]. rewrite <- E. apply in_map. auto.
Qed.

Record Inv (s : host) (w : world) : Prop := MkInv {
  i_len : length (procs s) = length w;
  i_forks : forks s = length w;
  i_pids : NoDup (map kpid (kids s));
  i_uids : NoDup (map uid (kids s));
  i_owned : forall k, In k (kids s) -> (uid k < length w)%nat;
  i_pos : forall i l, nth_error (procs s) i = Some l -> 0 < lpid l;
  i_run : forall i l, nth_error (procs s) i = Some l -> state_of w i = None ->
    seen l = None /\ In (Kid i (lpid l) Running) (kids s);
  i_end : forall i l raw, nth_error (procs s) i = Some l -> state_of w i = Some raw ->
    (seen l = None /\ In (Kid i (lpid l) (Zombie raw)) (kids s))
    \/ (seen l = Some (wexit raw) /\ forall k, In k (kids s) -> uid k <> i);
  i_kill : forall i p t, In (TKill i p t) (trace s) -> t = Some i;
  i_reap : forall i u, In (TReap i u) (trace s) -> i = u /\ (u < length w)%nat /\ forall k, In k (kids s) -> uid k <> u;
  i_once : NoDup (reaps (trace s)) }.

Lemma Inv_init : Inv init [].
Proof. constructor; cbn; auto using NoDup_nil; try contradiction; intros [|i]; discriminate. Qed.

Lemma uid_unique ks k1 k2 : NoDup (map uid ks) -> In k1 ks -> In k2 ks -> uid k1 = uid k2 -> k1 = k2.
Proof.
  induction ks as [|x t IH]; cbn; intros N A B E; [contradiction|]. inversion N; subst.
  destruct A as [->|A], B as [->|B]; auto.
  - exfalso. apply H1. rewrite E. apply in_map. auto.
  - exfalso. apply H1. rewrite <- E. apply in_map. auto.
Qed.

Lemma kwait_own nohang p c ks k : p <> -1 -> NoDup (map kpid ks) -> In k ks -> kpid k = p ->
  kwait nohang p c ks = match kst k with
                        | Zombie r => AReaped k r
                        | Running => if nohang then ARunning else ABlocks
                        end.
Proof.
  intros P N I <-. unfold kwait. destruct (Z.eqb_spec (kpid k) (-1)); [contradiction|].
  rewrite find_pid by auto. auto.
Qed.

Lemma reaps_app a b : reaps (a ++ b) = reaps a ++ reaps b.
Proof. apply flat_map_app. Qed.
Lemma reaps_waits i n : reaps (repeat (TWait i) n) = [].
Proof. induction n; cbn; auto. Qed.

Lemma inv_trace s w i n : Inv s w ->
  Inv (Host (procs s) (kids s) (forks s) (trace s ++ repeat (TWait i) n)) w.
Proof.
  intros [A B C D E F G H K L M]. constructor; cbn; auto.
  - intros j p t X. apply in_app_or in X as [X|X]; eauto. apply repeat_spec in X. discriminate.
  - intros j u X. apply in_app_or in X as [X|X]; eauto. apply repeat_spec in X. discriminate.
  - rewrite reaps_app, reaps_waits, app_nil_r. auto.
Qed.

Lemma waitpid_spec nohang i n c s w s' r : Inv s w -> (i < length (procs s))%nat ->
  waitpid nohang i n c s = (s', r) ->
  Inv s' w /\ procs s' = match state_of w i with
                         | Some raw => upd (procs s) i (Proc (lpid (nth i (procs s) (Proc 0 None))) (Some (wexit raw)))
                         | None => procs s end
  /\ r = match state_of w i with None => if nohang then RStatus false 0 else RBlocked | x => report x end.
Proof.
  intros I Hi E. pose proof I as [A B C D F P G H K L M].
  destruct (nth_error (procs s) i) as [l|] eqn:El; [|apply nth_error_None in El; lia].
  assert (Hn : nth i (procs s) (Proc 0 None) = l) by (apply nth_error_nth; auto). rewrite Hn.
  assert (Pl : lpid l <> -1) by (specialize (P i l El); lia).
  unfold waitpid in E. rewrite El in E. remember (S n) as m eqn:Em. clear Em.
  destruct (state_of w i) as [raw|] eqn:Es.
  - destruct (H i l raw El Es) as [[S1 S2]|[S1 S2]].
    + rewrite S1 in E. rewrite (kwait_own nohang (lpid l) c (kids s) _ Pl C S2 eq_refl) in E.
      cbn [kst kpid uid] in E. rewrite Z.eqb_refl in E. injection E as <- <-.
      split; [|split; [reflexivity|cbn; rewrite wexit_div; reflexivity]].
      constructor; cbn [procs kids forks trace].
      * rewrite upd_length; auto.
      * auto.
      * apply nodup_filter_map; auto.
      * apply nodup_filter_map; auto.
      * intros k X. apply reap_in in X as [X _]. auto.
      * intros j l' X. rewrite upd_nth in X. destruct (Nat.eqb_spec i j); [|eauto].
        destruct (Nat.ltb_spec i (length (procs s))); [|discriminate]. injection X as <-. cbn. eauto.
      * intros j l' X Y. rewrite upd_nth in X. destruct (Nat.eqb_spec i j) as [->|N]; [congruence|].
        destruct (G j l' X Y) as [G1 G2]. split; auto. apply reap_in. cbn. auto.
      * intros j l' raw' X Y. rewrite upd_nth in X. destruct (Nat.eqb_spec i j) as [->|N].
        -- destruct (Nat.ltb_spec j (length (procs s))); [|discriminate]. injection X as <-.
           right. rewrite Es in Y. injection Y as <-. cbn. split; auto.
           intros k Hk. apply reap_in in Hk. tauto.
        -- destruct (H j l' raw' X Y) as [[H1 H2]|[H1 H2]]; [left|right]; split; auto.
           ++ apply reap_in. cbn. auto.
           ++ intros k Hk. apply reap_in in Hk. apply H2. tauto.
      * intros j p t X. rewrite !in_app_iff in X. destruct X as [[X|X]|[X|[]]]; eauto.
        -- apply repeat_spec in X. discriminate.
        -- discriminate.
      * intros j u X. rewrite !in_app_iff in X. destruct X as [[X|X]|[X|[]]].
        -- destruct (L j u X) as [L1 [L3 L2]]. split; auto. split; auto. intros k Hk. apply reap_in in Hk. apply L2. tauto.
        -- apply repeat_spec in X. discriminate.
        -- injection X as <- <-. split; auto. split; [apply (F _ S2)|]. intros k Hk. apply reap_in in Hk. tauto.
      * rewrite !reaps_app, reaps_waits, app_nil_r. cbn. apply nodup_snoc; auto.
        intros X. apply in_reaps in X as [j X]. destruct (L j i X) as [_ [_ L2]]. apply (L2 _ S2). reflexivity.
    + rewrite S1 in E. injection E as <- <-. split; [exact I|]. split.
      * clear - El S1. destruct l as [p o]. cbn in *. subst o. revert i El. 
        induction (procs s) as [|x t IH]; intros [|i] El; cbn in *; try discriminate.
        -- injection El as ->. reflexivity.
        -- f_equal. apply IH. auto.
      * cbn. rewrite wexit_div. reflexivity.
  - destruct (G i l El Es) as [S1 S2]. rewrite S1 in E.
    rewrite (kwait_own nohang (lpid l) c (kids s) _ Pl C S2 eq_refl) in E. cbn [kst] in E.
    destruct nohang; injection E as <- <-; (split; [apply inv_trace; auto|auto]).
Qed.

Lemma inv_nth_lt s w i : Inv s w -> (i < length (procs s))%nat -> (i < length w)%nat.
Proof. intros I. rewrite (i_len _ _ I). auto. Qed.

(** A child ends: Exits, or a kill that hits it. *)
Lemma inv_ends s w i raw f l t :
  Inv s w -> nth_error (procs s) i = Some l -> state_of w i = None ->
  (forall k, In k (kids s) -> uid (f k) = uid k /\ kpid (f k) = kpid k) ->
  (forall k, In k (kids s) -> f k = if Nat.eqb (uid k) i then Kid i (kpid k) (Zombie raw) else k) ->
  (forall j p u, In (TKill j p u) t -> u = Some j) -> (forall j u, ~ In (TReap j u) t) -> 
  Inv (Host (procs s) (map f (kids s)) (forks s) (trace s ++ t)) (ends i raw w).
Proof.
  intros [A B C D E P G H K L M] El Es F1 F2 T1 T2.
  assert (Mp : map kpid (map f (kids s)) = map kpid (kids s)).
  { rewrite map_map. apply map_ext_in. intros k X. apply F1 in X. tauto. }
  assert (Mu : map uid (map f (kids s)) = map uid (kids s)).
  { rewrite map_map. apply map_ext_in. intros k X. apply F1 in X. tauto. }
  assert (Hlt : forall j l', nth_error (procs s) j = Some l' -> (j < length w)%nat).
  { intros j l' X. rewrite <- A. apply nth_error_Some. rewrite X. discriminate. }
  assert (Other : forall k, In k (kids s) -> uid k <> i -> In k (map f (kids s))).
  { intros k X N. apply in_map_iff. exists k. split; auto. rewrite F2 by auto.
    destruct (Nat.eqb_spec (uid k) i); [contradiction|auto]. }
  assert (Back : forall u, (forall k, In k (kids s) -> uid k <> u) ->
                           forall k, In k (map f (kids s)) -> uid k <> u).
  { intros u X k Y. apply in_map_iff in Y as [k0 [<- Y]]. destruct (F1 k0 Y) as [-> _]. auto. }
  constructor; cbn [procs kids forks trace]; rewrite ?ends_length, ?Mp, ?Mu; auto.
  - intros k X. apply in_map_iff in X as [k0 [<- X]]. destruct (F1 k0 X) as [-> _]. auto.
  - intros j l' X Y. rewrite ends_state in Y by eauto. destruct (Nat.eqb_spec j i); [discriminate|].
    destruct (G j l' X Y). split; auto.
  - intros j l' r X Y. rewrite ends_state in Y by eauto. destruct (Nat.eqb_spec j i) as [->|N].
    + rewrite Es in Y. injection Y as <-. left. destruct (G i l' X Es) as [G1 G2]. split; auto.
      apply in_map_iff. exists (Kid i (lpid l') Running). split; auto. rewrite F2 by auto. cbn.
      rewrite Nat.eqb_refl. auto.
    + destruct (H j l' r X Y) as [[H1 H2]|[H1 H2]]; [left|right]; auto.
  - intros j p u X. apply in_app_or in X as [X|X]; eauto.
  - intros j u X. apply in_app_or in X as [X|X]; [|destruct (T2 j u X)].
    destruct (L j u X) as [L1 [L3 L2]]. repeat split; auto.
  - rewrite reaps_app. replace (reaps t) with (@nil nat); [rewrite app_nil_r; auto|].
    symmetry. destruct (reaps t) as [|u x] eqn:Er; auto. exfalso.
    destruct (in_reaps t u) as [j Hj]; [rewrite Er; left; auto|]. exact (T2 j u Hj).
Qed.

Lemma step_ok o s w s' r : Inv s w -> possible o s -> proper o -> step o s = (s', r) ->
  Inv s' (fst (spec_step o w)) /\ r = snd (spec_step o w).
Proof.
  intros I P Pr E. destruct o; cbn in *; try contradiction.
  - injection E as <- <-. split; auto. destruct P as [P1 P2]. destruct I as [A B C D F Q G H K L M].
    assert (Ln : length (w ++ [None]) = S (length w)) by (rewrite app_length; cbn; lia).
    assert (St : forall j, (j < length w)%nat -> state_of (w ++ [None]) j = state_of w j).
    { intros j X. unfold state_of. rewrite app_nth1; auto. }
    assert (Nt : forall j l, nth_error (procs s ++ [Proc p None]) j = Some l ->
      (nth_error (procs s) j = Some l /\ (j < length w)%nat) \/ (j = length w /\ l = Proc p None)).
    { intros j l X. destruct (Nat.ltb_spec j (length (procs s))) as [Y|Y].
      - rewrite nth_error_app1 in X by auto. left. split; auto. lia.
      - rewrite nth_error_app2 in X by auto. right. destruct (j - length (procs s))%nat as [|m] eqn:Z;
          cbn in X; [injection X as <-; split; [lia|auto]|destruct m; discriminate]. }
    assert (Sn : state_of (w ++ [None]) (length w) = None).
    { unfold state_of. rewrite app_nth2, Nat.sub_diag by lia. auto. }
    constructor; cbn [procs kids forks trace].
    + rewrite !app_length. cbn. lia.
    + rewrite Ln. lia.
    + rewrite map_app. apply nodup_snoc; auto.
    + rewrite map_app. apply nodup_snoc; auto. cbn. intros X. apply in_map_iff in X as [k [X Y]].
      apply F in Y. lia.
    + intros k X. apply in_app_or in X as [X|[X|[]]]; [apply F in X; lia|subst k; cbn; lia].
    + intros j l X. apply Nt in X as [[X _]|[-> ->]]; eauto.
    + intros j l X Y. apply Nt in X as [[X Z]|[-> ->]].
      * rewrite St in Y by auto. destruct (G j l X Y). split; auto. apply in_or_app; auto.
      * cbn. split; auto. apply in_or_app. right. left. rewrite B. auto.
    + intros j l raw X Y. apply Nt in X as [[X Z]|[-> ->]].
      * rewrite St in Y by auto. destruct (H j l raw X Y) as [[H1 H2]|[H1 H2]]; [left|right]; split; auto.
        -- apply in_or_app; auto.
        -- intros k Hk. apply in_app_or in Hk as [Hk|[Hk|[]]]; auto. subst k. cbn. lia.
      * congruence.
    + auto.
    + intros j u X. destruct (L j u X) as [-> [L3 L2]]. split; auto. split; [lia|].
      intros k Hk. apply in_app_or in Hk as [Hk|[Hk|[]]]; auto. subst k. cbn. lia.
    + auto.
  - injection E as <- <-. split; auto. destruct P as [p P].
    assert (Hu : (u < length w)%nat) by (apply (i_owned _ _ I) in P; auto).
    destruct (nth_error (procs s) u) as [l|] eqn:El;
      [|apply nth_error_None in El; rewrite (i_len _ _ I) in El; lia].
    assert (Es : state_of w u = None).
    { destruct (state_of w u) as [raw0|] eqn:Es; auto. exfalso.
      destruct (i_end _ _ I u l raw0 El Es) as [[_ X]|[_ X]].
      - pose proof (uid_unique _ _ _ (i_uids _ _ I) P X eq_refl). discriminate.
      - exact (X _ P eq_refl). }
    rewrite <- (app_nil_r (trace s)).
    apply inv_ends with (l := l); auto; cbn; try tauto.
    intros k X. destruct (Nat.eqb_spec (uid k) u); auto.
  - destruct (waitpid_spec _ _ _ _ _ _ _ _ I P E) as [X [_ ->]]. split; auto.
  - destruct (waitpid_spec _ _ _ _ _ _ _ _ I P E) as [X [_ ->]]. split; auto.
  - unfold lib_terminate in E. destruct (waitpid true i intr choice s) as [s1 r1] eqn:E1.
    destruct (waitpid_spec _ _ _ _ _ _ _ _ I P E1) as [X [Y ->]].
    assert (Hi : (i < length w)%nat) by exact (inv_nth_lt s w i I P).
    destruct (state_of w i) as [raw|] eqn:Es.
    + cbn in E. injection E as <- <-. split; auto.
      replace (ends i SIGKILL w) with w; auto.
      clear - Es Hi. unfold state_of in Es. revert i Es Hi. induction w as [|x w IH]; intros [|i] Es Hi; cbn in *; auto; try lia.
      * subst x. auto.
      * f_equal. apply IH; auto. lia.
    + injection E as <- <-. split; auto. unfold proc_terminate. rewrite Y.
      destruct (nth_error (procs s) i) as [l|] eqn:El; [|apply nth_error_None in El; lia].
      destruct (i_run _ _ X i l) as [S1 S2]; [rewrite Y; auto|auto|].
      assert (Pl : 0 < lpid l) by (eapply i_pos; [exact X|rewrite Y; eauto]).
      assert (Pe : (lpid l =? -1) = false) by (apply Z.eqb_neq; lia).
      rewrite <- Y. unfold kkill.
      apply inv_ends with (l := l); auto; try (rewrite Y; auto).
      * intros k Hk. destruct (_ || _); auto. unfold killed. destruct (kst k); auto.
      * intros k Hk. rewrite Pe. cbn [orb]. destruct (Z.eqb_spec (kpid k) (lpid l)) as [Ek|Ek].
        -- assert (k = Kid i (lpid l) Running) as ->.
           { pose proof (find_pid _ _ (i_pids _ _ X) Hk) as F1.
             pose proof (find_pid _ _ (i_pids _ _ X) S2) as F2. cbn in F2. rewrite Ek, F2 in F1. congruence. }
           cbn. rewrite Nat.eqb_refl. auto.
        -- destruct (Nat.eqb_spec (uid k) i) as [Eu|Eu]; auto. exfalso. apply Ek.
           rewrite (uid_unique _ _ _ (i_uids _ _ X) Hk S2 Eu). auto.
      * intros j p u [Z|[]]. injection Z as <- <- <-. unfold target. rewrite Pe.
        pose proof (find_pid _ _ (i_pids _ _ X) S2) as F2. cbn in F2. rewrite F2. auto.
      * intros j u [Z|[]]. discriminate.
Qed.

Lemma spec_run_snoc os o w : spec_run (os ++ [o]) w =
  (fst (spec_step o (fst (spec_run os w))), snd (spec_run os w) ++ [snd (spec_step o (fst (spec_run os w)))]).
Proof.
  revert w. induction os as [|a os IH]; intros w; cbn.
  - destruct (spec_step o w); auto.
  - destruct (spec_step a w) as [w1 r1]. rewrite IH. destruct (spec_run os w1). auto.
Qed.

Lemma runs_ok os rs s : runs init os rs s -> Forall proper os ->
  Inv s (fst (spec_run os [])) /\ rs = snd (spec_run os []).
Proof.
  intros R. remember init as s0 eqn:E0. induction R as [s|s os rs s1 o s2 r R IH P E]; intros F.
  - subst. split; auto. exact Inv_init.
  - apply Forall_app in F as [F1 F2]. inversion F2; subst. destruct (IH eq_refl F1) as [I ->].
    rewrite spec_run_snoc. cbn. destruct (step_ok _ _ _ _ _ I P H1 E) as [X ->]. auto.
Qed.
