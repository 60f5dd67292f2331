(** Proofs about several libraries in one program.  Each library's view is a
    history of OwnModel in which what the others do appears as the program opening
    and closing. *)
From Coq Require Import String Ascii List ZArith Lia Bool Permutation Arith.
From Verif Require Import Base PathModel FileTreeModel FileTreeSpec RegionModel RegionSpec DispatchModel HostCallsModel HostCallsSpec NetProps
  HandleModel OwnModel OwnSpec OwnProof OwnProps GateModel GateSpec GateProof GateProps LibsModel LibsSpec.
Import ListNotations.
Local Open Scope Z_scope.

Local Notation hist := (list (op * OwnModel.result)).

Lemma upd_same {A} (f : nat -> A) i a : upd f i a i = a.
Proof. unfold upd. rewrite Nat.eqb_refl. reflexivity. Qed.
Lemma upd_other {A} (f : nat -> A) i a j : j <> i -> upd f i a j = f j.
Proof. unfold upd. intros D. apply Nat.eqb_neq in D. rewrite D. reflexivity. Qed.

(** The same table under another tree. *)
Definition under (t : option FileTreeModel.dir) (s : state) : state := St t (kern s) (next s) (closes s).

Lemma holds_split (es l : hist) u : holds (es ++ l) u <->
  opened (es ++ l) u /\ (~ In (Close u, Done) es /\ forall p f, ~ In (Add p f (Some u), Answer true) es) /\
  (~ In (Close u, Done) l /\ forall p f, ~ In (Add p f (Some u), Answer true) l).
Proof.
  unfold holds, opened. split.
  - intros (A & B & C). split; [exact A|]. split; split.
    + intros X. apply B, in_or_app. auto.
    + intros p f X. apply (C p f), in_or_app. auto.
    + intros X. apply B, in_or_app. auto.
    + intros p f X. apply (C p f), in_or_app. auto.
  - intros (A & (B & C) & (D & E)). split; [exact A|]. split.
    + intros X. apply in_app_or in X as [X|X]; auto.
    + intros p f X. apply in_app_or in X as [X|X]; [exact (C p f X)|exact (E p f X)].
Qed.
Lemma holds_keep (es l : hist) u : holds es u -> ~ In (Close u, Done) l -> (forall p f, ~ In (Add p f (Some u), Answer true) l) -> holds (es ++ l) u.
Proof. intros ((n & A) & B & C) D E. apply holds_split. split; [exists n; apply in_or_app; auto|auto]. Qed.
Lemma holds_back (es l : hist) u : opened es u -> holds (es ++ l) u -> holds es u.
Proof. intros O H. apply holds_split in H as (_ & (B & C) & _). split; [exact O|auto]. Qed.
Lemma opened_more (es l : hist) u : opened es u -> opened (es ++ l) u.
Proof. intros (n & A). exists n. apply in_or_app. auto. Qed.

Section VIEWS.
Variable debug : bool.
Local Notation runs := (runs debug).

(** Destroying Handles, seen by someone who holds what they own. *)
Lemma runs_destroys fds : forall es s k c, runs es s -> destroy debug fds (kern s) (closes s) = Some (k, c) -> NoDup (pos fds) ->
  (forall f, In f fds -> 0 <= f -> exists u, lookup f (kern s) = Some u /\ holds es u) ->
  exists l, runs (es ++ l) (St (tree s) k (next s) c) /\
    forall x, In x l -> exists u f, x = (Close u, Done) /\ In f fds /\ lookup f (kern s) = Some u.
Proof.
  induction fds as [|n fds IH]; intros es s k c R D N F.
  - cbn in D. injection D as <- <-. exists []. rewrite app_nil_r. split; [destruct s; exact R|intros x []].
  - cbn [destroy] in D. destruct (Z.ltb_spec n 0) as [L|L].
    + destruct (IH es s k c R D) as (l & R' & X).
      * cbn in N. destruct (Z.leb_spec 0 n); [lia|exact N].
      * intros f I1. apply F. right. exact I1.
      * exists l. split; [exact R'|]. intros x I1. destruct (X _ I1) as (u & f & E & I2 & K). exists u, f. split; [exact E|]. split; [right|]; auto.
    + destruct (F n (or_introl eq_refl) L) as (u & K & H). rewrite K in D.
      pose proof (runs_shut _ _ _ _ _ R H K) as R1.
      destruct (runs_Inv _ _ _ R) as (kt & km & kc & I).
      cbn in N. destruct (Z.leb_spec 0 n) as [_|]; [|lia]. inversion N as [|? ? N1 N2]; subst.
      assert (Kb : forall f, In f fds -> 0 <= f -> lookup f (drop n (kern s)) = lookup f (kern s)).
      { intros f I1 P. assert (Df : f <> n) by (intros ->; apply N1, in_pos; auto).
        clear - Df. induction (kern s) as [|[m w] q IHq]; cbn; [reflexivity|]. destruct (Z.eqb_spec m n) as [->|]; cbn.
        - destruct (Z.eqb_spec n f); [congruence|reflexivity].
        - rewrite IHq. reflexivity. }
      destruct (IH _ (shut n u s) k c R1 D N2) as (l & R' & X).
      * intros f I1 P. cbn [shut kern]. rewrite (Kb f I1 P). destruct (F f (or_intror I1) P) as (w & Kw & Hw). exists w. split; [exact Kw|].
        apply holds_close. split; [exact Hw|]. intros ->.
        assert (f = n).
        { apply (lookup_in _ _ _ (i_num _ _ _ _ _ I)) in K, Kw. eapply nodup_snd; [eapply NoDup_app_l, (i_ids_nodup _ _ _ _ _ I)|exact Kw|exact K]. }
        subst f. apply N1, in_pos. auto.
      * exists ((Close u, Done) :: l). change ((Close u, Done) :: l) with ([(Close u, Done)] ++ l). rewrite app_assoc. split; [exact R'|].
        intros x [<-|I1]; [exists u, n; split; [reflexivity|]; split; [left; reflexivity|exact K]|].
        destruct (X _ I1) as (w & f & E & I2 & Kf). exists w, f. split; [exact E|]. split; [right; exact I2|].
        cbn [shut kern] in Kf. destruct (Z.leb_spec 0 f) as [P|P]; [rewrite <- (Kb f I2 P); exact Kf|].
        exfalso. apply lookup_in in Kf; [|destruct (runs_Inv _ _ _ R1) as (? & ? & ? & I'); exact (i_num _ _ _ _ _ I')].
        destruct (runs_Inv _ _ _ R1) as (? & ? & ? & I'). apply (i_nonneg _ _ _ _ _ I') in Kf. lia.
Qed.

(** What one library's operation on its exports looks like from another. *)
Lemma gone_inj a b c : c ++ gone a = c ++ map (fun x => (fst x, Some (snd x))) b -> a = b.
Proof.
  intros E. apply app_inv_head in E. revert b E. induction a as [|[n u] a IH]; intros [|[m w] b] E; cbn in E; try discriminate; [reflexivity|].
  injection E as -> -> E. f_equal. apply IH. exact E.
Qed.

Lemma other_view es s o s' r : runs es s -> allowed es s o -> step debug o s = (s', r) ->
  forall tj ej, runs ej (under tj s) -> (forall u, found s u -> ~ found (under tj s) u) -> (forall u, o = Close u -> holds ej u) ->
  exists l, runs (ej ++ l) (under tj s') /\
    forall x, In x l -> (exists n, x = (o, r) /\ o = Open n) \/ exists u, x = (Close u, Done) /\ (o = Close u \/ found s u).
Proof.
  intros R Al E tj ej Rj Dj Hc.
  destruct (runs_Inv _ _ _ R) as (kt & km & kc & I). destruct (Inv_step _ _ _ _ _ _ _ _ _ I Al E) as (kt' & km' & kc' & kd & I' & Ch).
  destruct (runs_Inv _ _ _ Rj) as (jt & jm & jc & J).
  assert (Same : s' = s -> exists l, runs (ej ++ l) (under tj s') /\
    forall x, In x l -> (exists n, x = (o, r) /\ o = Open n) \/ exists u, x = (Close u, Done) /\ (o = Close u \/ found s u)).
  { intros ->. exists []. rewrite app_nil_r. split; [exact Rj|intros x []]. }
  assert (Des : forall fds t', s' = under t' s' -> destroy debug fds (kern s) (closes s) = Some (kern s', closes s') -> next s' = next s ->
    NoDup (pos fds) -> (forall f, In f fds -> 0 <= f -> exists u, lookup f (kern s) = Some u /\ found s u) ->
    exists l, runs (ej ++ l) (under tj s') /\
    forall x, In x l -> (exists n, x = (o, r) /\ o = Open n) \/ exists u, x = (Close u, Done) /\ (o = Close u \/ found s u)).
  { intros fds t' _ D Nx Nd F. destruct (runs_destroys fds ej (under tj s) _ _ Rj D Nd) as (l & R' & X).
    - intros f I1 P. destruct (F f I1 P) as (u & K & Fu). exists u. split; [exact K|].
      assert (Lt : (u < next s)%nat).
      { apply (lookup_in _ _ _ (i_num _ _ _ _ _ I)) in K. apply (in_map snd) in K. cbn in K.
        assert (X : In u (seq 0 (next s))) by (rewrite <- (i_ids _ _ _ _ _ I); apply in_or_app; auto). apply in_seq in X. lia. }
      apply (i_opened _ _ _ _ _ J) in Lt. destruct (one_place _ _ _ _ _ u J Lt) as [(T & _ & _)|[(_ & Hu & _)|(_ & _ & Y)]]; [|exact Hu|exfalso; exact (Dj u Fu Y)].
      exfalso. assert (Oi : opened es u) by (apply (i_opened _ _ _ _ _ I), (i_opened _ _ _ _ _ J), Lt).
      change (times_closed (under tj s) u) with (times_closed s u) in T.
      destruct (one_place _ _ _ _ _ u I Oi) as [(_ & _ & Y)|[(T' & _)|(T' & _)]]; [exact (Y Fu)|lia|lia].
    - exists l. cbn [under kern next closes tree] in R'. rewrite <- Nx in R'. split; [exact R'|].
      intros x I1. right. destruct (X _ I1) as (u & f & -> & If & K). exists u. split; [reflexivity|]. right.
      assert (P : 0 <= f) by (apply (lookup_in _ _ _ (i_num _ _ _ _ _ J)) in K; eapply (i_nonneg _ _ _ _ _ J); exact K).
      destruct (F f If P) as (w & K' & Fw). cbn [under kern] in K. rewrite K in K'. injection K' as <-. exact Fw. }
  destruct o as [n|p file who|u|].
  - cbn [step] in E. injection E as <- <-. exists [(Open n, Opened (next s))]. split.
    + eapply runs_snoc; [exact Rj|exact Al|reflexivity].
    + intros x [<-|[]]. left. exists n. auto.
  - pose proof E as E0. cbn [step] in E. pose proof (proj1 Al) as At. destruct (tree s) as [t|] eqn:Et; [|congruence].
    cbv zeta in E. destruct (own_handle _ _ _) as [[[ok t'] dead]| | | |] eqn:O; try (injection E as <- <-; apply Same; reflexivity).
    destruct (destroy debug dead (kern s) (closes s)) as [[k c]|] eqn:D; [|injection E as <- <-; apply Same; reflexivity].
    injection E as <- <-.
    inversion Ch as [? ? ? Nab Nan|? ? ? t0 t1 dead1 ? ? ? Et0 Et1 O1 F1 C1 P1| |]; subst; [exfalso; eapply Nan; reflexivity|].
    cbn [tree] in Et1. assert (t0 = t) by congruence. subst t0. cbv zeta in O1. rewrite O in O1. injection O1 as <- <-.
    assert (Nd : NoDup (map fst kd)).
    { pose proof (i_num _ _ _ _ _ I) as N. rewrite P1, map_app in N. eapply NoDup_app_l; exact N. }
    apply (Des dead (Some t')); [reflexivity|exact D|reflexivity|rewrite <- F1; exact Nd|].
    intros f If P. assert (X : In f (map fst kd)) by (rewrite F1; apply in_pos; auto).
    apply in_map_iff in X as ([f' u] & Ef & X). cbn in Ef. subst f'. exists u. split.
    + apply (lookup_in _ _ _ (i_num _ _ _ _ _ I)). rewrite P1. apply in_or_app. auto.
    + destruct (add_closes_what_it_hides debug es s p file who _ _ R Al E0) as (new & C2 & Hn & _). rewrite C1 in C2. apply gone_inj in C2. subst new.
      apply (Hn u). apply (in_map snd) in X. exact X.
  - cbn [step] in E. exists [(Close u, Done)]. pose proof (Hc u eq_refl) as Hu.
    destruct (number_held _ _ _ _ _ u J Hu) as (n & km1 & En & _ & Pn & In1). cbn [under kern] in En, In1. rewrite En in E.
    apply (lookup_in _ _ _ (i_num _ _ _ _ _ I)) in In1. cbn [destroy] in E. pose proof Pn as Pn'. apply Z.ltb_ge in Pn'. rewrite Pn', In1 in E. injection E as <- <-.
    split; [|intros x [<-|[]]; right; exists u; auto].
    exact (runs_shut debug ej (under tj s) n u Rj Hu In1).
  - pose proof E as E0. cbn [step] in E. destruct (tree s) as [t|] eqn:Et; [|congruence].
    destruct (destroy debug (tree_fds t) (kern s) (closes s)) as [[k c]|] eqn:D; [|injection E as <- <-; apply Same; reflexivity].
    injection E as <- <-.
    inversion Ch as [? ? ? Nab Nan Et' Ec' Ik Eo| | |t0 ? ? Et0 Et1 F1 C1 P1]; subst; [cbn [tree] in Et'; congruence|].
    assert (t0 = t) by congruence. subst t0.
    assert (Nd : NoDup (map fst kd)).
    { pose proof (i_num _ _ _ _ _ I) as N. rewrite P1, map_app in N. eapply NoDup_app_l; exact N. }
    apply (Des (tree_fds t) None); [reflexivity|exact D|reflexivity|rewrite <- F1; exact Nd|].
    intros f If P. assert (X : In f (map fst kd)) by (rewrite F1; apply in_pos; auto).
    apply in_map_iff in X as ([f' u] & Ef & X). cbn in Ef. subst f'. exists u. split.
    + apply (lookup_in _ _ _ (i_num _ _ _ _ _ I)). rewrite P1. apply in_or_app. auto.
    + apply (found_iff _ _ _ _ _ u I).
      assert (Y : In f (map fst kt)) by (rewrite (i_tree _ _ _ _ _ I), Et; apply in_pos; auto).
      apply in_map_iff in Y as ([f' w] & Ef & Y). cbn in Ef. subst f'.
      assert (w = u); [|subst w; apply (in_map snd) in Y; exact Y].
      eapply nodup_fst; [exact (i_num _ _ _ _ _ I)| |rewrite P1; apply in_or_app; left; exact X]. rewrite (i_split _ _ _ _ _ I). apply in_or_app. auto.
Qed.

Lemma runs_det es s : runs es s -> forall s', runs es s' -> s' = s.
Proof.
  induction 1 as [|es s o s1 r R IH Al E]; intros s' R'.
  - inversion R' as [|? ? ? ? ? ? ? ? E]; [reflexivity|]. apply app_eq_nil in E as [_ E]. discriminate.
  - inversion R' as [X|es2 s2 o2 s3 r2 R2 Al2 E2 X]; [symmetry in X; apply app_eq_nil in X as [_ X]; discriminate|].
    apply app_inj_tail in X as [-> X]. injection X as -> ->. rewrite (IH _ R2) in E2. congruence.
Qed.

(** What a request does is the same under every tree. *)
Lemma request_view es s l : runs es s -> Forall (own_event (next s)) l -> forall tj ej, runs ej (under tj s) ->
  forall s', runs (es ++ l) s' -> runs (ej ++ l) (under tj s').
Proof.
  intros R F tj ej Rj. destruct (runs_Inv _ _ _ R) as (kt & km & kc & I). destruct (runs_Inv _ _ _ Rj) as (jt & jm & jc & J).
  induction l as [|x l IH] using rev_ind; intros s' R'.
  - rewrite app_nil_r in *. assert (s' = s); [|subst; exact Rj]. eapply runs_det; eauto.
  - apply Forall_app in F as [F Fx]. inversion Fx as [|? ? Hx _]; subst. rewrite app_assoc in R'.
    inversion R' as [E|es1 s1 o s2 r R1 Al St E]; [symmetry in E; apply app_eq_nil in E as [_ E]; discriminate|].
    apply app_inj_tail in E as [-> <-]. subst s2. specialize (IH F _ R1). rewrite app_assoc.
    destruct Hx as [(n & u & Ex & Le)|(u & Ex & Le)]; injection Ex as -> ->.
    + eapply runs_snoc; [exact IH|exact Al|]. cbn [step] in *. injection St as <- <-. reflexivity.
    + cbn [allowed] in Al.
      assert (Hu : holds (ej ++ l) u).
      { destruct Al as ((n & O) & B & _). apply (runs_fresh debug ej (under tj s) l u n Rj Le F).
        - apply in_app_or in O as [O|O]; [|exact O]. exfalso. assert (X : (u < next s)%nat) by (apply (i_opened _ _ _ _ _ I); exists n; exact O). lia.
        - intros X. apply B, in_or_app. auto. }
      eapply runs_snoc; [exact IH|exact Hu|]. cbn [step under kern closes tree next] in *.
      destruct (destroy debug [number u (kern s1)] (kern s1) (closes s1)) as [[k c]|]; [|discriminate]. injection St as <-. reflexivity.
Qed.
End VIEWS.

Lemma all_app a b : all (a ++ b) = all a ++ all b.
Proof. apply map_app. Qed.
Lemma only_same i es x : only i (es ++ [(i, x)]) = only i es ++ [x].
Proof. unfold only. rewrite filter_app, map_app. cbn. rewrite Nat.eqb_refl. reflexivity. Qed.
Lemma only_other i j es x : i <> j -> only j (es ++ [(i, x)]) = only j es.
Proof. intros D. unfold only. rewrite filter_app, map_app. cbn. apply Nat.eqb_neq in D. rewrite D. cbn. apply app_nil_r. Qed.

Lemma lib_after_same w i g : lib (after w i g) i = g.
Proof. unfold lib, after. cbn. rewrite !upd_same. destruct g as [[t k n c] p]. reflexivity. Qed.
Lemma lib_after_other w i g j : j <> i -> own (lib (after w i g) j) = under (trees w j) (own g) /\ net (lib (after w i g) j) = net (lib w j).
Proof. intros D. unfold lib, after. cbn. rewrite !upd_other by exact D. split; reflexivity. Qed.
Lemma lib_under w i j : own (lib w j) = under (trees w j) (own (lib w i)).
Proof. reflexivity. Qed.
Lemma closings_any w i u : times_closed (own (lib w i)) u = closings w u.
Proof. reflexivity. Qed.

Section HISTORY.
Variables (debug : bool) (shm size hdr : nat -> Z).
Hypothesis M : forall i, mapping_ok (shm i) (size i) (hdr i).
Local Notation heaps := (fun i => library_heap (shm i) (size i) (hdr i)).
Local Notation lruns := (lruns debug heaps).
Local Notation runs := (runs debug).
Local Notation prog es := (program (all es)).

Record linv (es : history) (w : host) : Prop := {
  v_runs : forall i, exists ei, runs ei (own (lib w i)) /\ forall u, holds (prog es) u -> holds ei u;
  v_net : forall i, net (lib w i) = policy_after (settings (only i es));
  v_apart : forall i j u, exported w i u -> exported w j u -> i = j;
  v_some : forall u, opened (prog es) u -> ~ holds (prog es) u -> closings w u = 0%nat -> exists i, exported w i u;
  v_opened : forall u, opened (prog es) u -> (u < fresh w)%nat;
  v_closing : forall u r, In (Close u, r) (prog es) -> (u < fresh w)%nat;
  v_adding : forall p file u r, In (Add p file (Some u), r) (prog es) -> (u < fresh w)%nat }.

Lemma found_lt es s u : runs es s -> found s u -> (u < next s)%nat.
Proof.
  intros R (t & p & n & tail & _ & _ & K). destruct (runs_Inv _ _ _ R) as (kt & km & kc & I).
  apply (lookup_in _ _ _ (i_num _ _ _ _ _ I)) in K. apply (in_map snd) in K. cbn in K.
  assert (X : In u (seq 0 (next s))) by (rewrite <- (i_ids _ _ _ _ _ I); apply in_or_app; auto). apply in_seq in X. lia.
Qed.
Lemma place es s u : runs es s -> (u < next s)%nat ->
  (times_closed s u = 1%nat /\ ~ holds es u /\ ~ found s u) \/
  (times_closed s u = 0%nat /\ holds es u /\ ~ found s u) \/
  (times_closed s u = 0%nat /\ ~ holds es u /\ found s u).
Proof.
  intros R L. destruct (runs_Inv _ _ _ R) as (kt & km & kc & I). eapply one_place; [exact I|]. apply (i_opened _ _ _ _ _ I). exact L.
Qed.
Lemma lt_opened es s u : runs es s -> (u < next s)%nat <-> opened es u.
Proof. intros R. destruct (runs_Inv _ _ _ R) as (kt & km & kc & I). symmetry. apply (i_opened _ _ _ _ _ I). Qed.
Lemma next_mono es s l s' : runs es s -> runs (es ++ l) s' -> (next s <= next s')%nat.
Proof.
  intros R R'. destruct (next s) as [|n] eqn:E; [lia|]. assert (L : (n < next s')%nat); [|lia].
  apply (lt_opened _ _ _ R'). apply opened_more. apply (lt_opened _ _ _ R). lia.
Qed.
(** Opening and closing do not change what is found. *)
Definition plain (x : op * OwnModel.result) : Prop := (exists n, fst x = Open n) \/ exists u, x = (Close u, Done).
Definition sees (s : state) (p tail : path) (u : nat) : Prop := exists t n, tree s = Some t /\ lookup_file t p = Some (n, tail) /\ lookup n (kern s) = Some u.
Lemma found_sees s u : found s u <-> exists p tail, sees s p tail u.
Proof. split; [intros (t & p & n & tail & X); exists p, tail, t, n; exact X|intros (p & tail & t & n & X); exists t, p, n, tail; exact X]. Qed.
Lemma found_step es s o s' r p tail u : runs es s -> allowed es s o -> step debug o s = (s', r) -> plain (o, r) -> (sees s' p tail u <-> sees s p tail u).
Proof.
  intros R Al E P. assert (R' : runs (es ++ [(o, r)]) s') by (eapply runs_snoc; eauto).
  destruct (runs_Inv _ _ _ R) as (kt & km & kc & I). destruct (Inv_step _ _ _ _ _ _ _ _ _ I Al E) as (kt' & km' & kc' & kd & I' & Ch).
  destruct P as [(n & En)|(u0 & Eu)].
  - cbn in En. subst o. cbn [step] in E. injection E as <- <-. cbn [kern] in *. split.
    + intros (t & m & Et & L & K). exists t, m. split; [exact Et|]. split; [exact L|]. cbn [kern] in K.
      apply (lookup_in _ _ _ (i_num _ _ _ _ _ I')) in K. cbn [kern] in K. apply in_app_or in K as [K|K].
      * apply (lookup_in _ _ _ (i_num _ _ _ _ _ I)). exact K.
      * destruct K as [K|[]]. injection K as <- <-. exfalso. destruct Al as [A1 A2].
        destruct (tree_open debug es s t R Et p n tail L) as [->|(w & Kw)]; [lia|congruence].
    + intros (t & m & Et & L & K). exists t, m. split; [exact Et|]. split; [exact L|].
      apply (lookup_in _ _ _ (i_num _ _ _ _ _ I')). cbn [kern]. apply in_or_app. left. apply (lookup_in _ _ _ (i_num _ _ _ _ _ I)). exact K.
  - injection Eu as -> ->. cbn [allowed] in Al.
    inversion Ch as [? ? ? Nab Nan Et' Ec' Ik Eo| |? n ? Et' Ec Pk|]; subst.
    { exfalso. cbn [step] in E. destruct (number_held _ _ _ _ _ u0 I Al) as (n & km1 & En & _ & Pn & In1). rewrite En in E.
      apply (lookup_in _ _ _ (i_num _ _ _ _ _ I)) in In1. cbn [destroy] in E. apply Z.ltb_ge in Pn. rewrite Pn, In1 in E. injection E as <-.
      cbn [closes] in Ec'. apply (f_equal (@length _)) in Ec'. rewrite app_length in Ec'. cbn in Ec'. lia. }
    split; intros (t & m & Et & L & K); exists t, m.
    + rewrite Et' in Et. split; [exact Et|]. split; [exact L|]. apply (lookup_in _ _ _ (i_num _ _ _ _ _ I')) in K.
      apply (lookup_in _ _ _ (i_num _ _ _ _ _ I)). rewrite Pk. right. exact K.
    + rewrite Et'. split; [exact Et|]. split; [exact L|]. apply (lookup_in _ _ _ (i_num _ _ _ _ _ I')).
      pose proof K as K'. apply (lookup_in _ _ _ (i_num _ _ _ _ _ I)) in K. rewrite Pk in K. destruct K as [K|K]; [|exact K].
      exfalso. injection K as -> ->. assert (Fu : found s u) by (exists t, p, m, tail; auto).
      destruct (place _ _ u R (held_lt _ _ _ _ _ _ I Al)) as [(_ & X & _)|[(_ & _ & X)|(_ & X & _)]]; contradiction.
Qed.
Lemma sees_plain es s l : runs es s -> Forall plain l -> forall s' p tail u, runs (es ++ l) s' -> (sees s' p tail u <-> sees s p tail u).
Proof.
  intros R F. induction l as [|x l IH] using rev_ind; intros s' p tail u R'.
  - rewrite app_nil_r in R'. rewrite (runs_det _ _ _ R _ R'). reflexivity.
  - apply Forall_app in F as [F Fx]. inversion Fx as [|? ? Hx _]; subst. rewrite app_assoc in R'.
    inversion R' as [E|es1 s1 o s2 r R1 Al St E]; [symmetry in E; apply app_eq_nil in E as [_ E]; discriminate|].
    apply app_inj_tail in E as [-> <-]. subst s2. rewrite <- (IH F _ p tail u R1). eapply found_step; eauto.
Qed.
Lemma found_plain es s l : runs es s -> Forall plain l -> forall s' u, runs (es ++ l) s' -> (found s' u <-> found s u).
Proof.
  intros R F s' u R'. rewrite !found_sees. split; intros (p & tail & X); exists p, tail; apply (sees_plain es s l R F s' p tail u R'); exact X.
Qed.
Lemma own_plain lo l : Forall (own_event lo) l -> Forall plain l.
Proof. apply Forall_impl. intros x [(n & u & -> & _)|(u & -> & _)]; [left; exists n; reflexivity|right; eauto]. Qed.

Lemma linv_0 : linv [] new_host.
Proof.
  constructor.
  - intros i. exists []. split; [exact (runs_0 debug)|]. intros u ((n & []) & _).
  - intros i. reflexivity.
  - intros i j u (t & p & n & tail & _ & _ & K). discriminate.
  - intros u (n & []).
  - intros u (n & []).
  - intros u r [].
  - intros p f u r [].
Qed.

Lemma prog_host es i o r : prog (es ++ [(i, (Host o, Did r))]) = prog es ++ [(o, r)].
Proof. rewrite all_app, program_app. reflexivity. Qed.
Lemma prog_serve es i q evs : prog (es ++ [(i, (Serve q, Served evs))]) = prog es.
Proof. rewrite all_app, program_app. cbn. apply app_nil_r. Qed.

Lemma open_step o s s' r n u : step debug o s = (s', r) -> (o, r) = (Open n, Opened u) -> u = next s /\ next s' = S (next s).
Proof. intros E X. injection X as -> ->. cbn [step] in E. injection E as <- <-. auto. Qed.
Lemma linv_host es w i o s' r : linv es w -> allowed (prog es) (own (lib w i)) o -> step debug o (own (lib w i)) = (s', r) ->
  linv (es ++ [(i, (Host o, Did r))]) (after w i (Gate s' (policies w i))) /\
  forall j p tail u, j <> i -> (finds (after w i (Gate s' (policies w i))) j p tail u <-> finds w j p tail u).
Proof.
  intros V Al E. destruct (v_runs _ _ V i) as (ei & Ri & Hi). set (s := own (lib w i)) in *. set (w' := after w i (Gate s' (policies w i))).
  assert (Ali : allowed ei s o).
  { destruct o as [n|p file who|u|]; cbn [allowed] in *; auto. destruct Al as (A1 & A2 & A3). split; [exact A1|]. split; [exact A2|]. intros u Hu. apply Hi, A3, Hu. }
  assert (Ri' : runs (ei ++ [(o, r)]) s') by (eapply runs_snoc; eauto).
  assert (Ei : own (lib w' i) = s') by (unfold w'; rewrite lib_after_same; reflexivity).
  assert (Nx : (next s <= next s')%nat) by (eapply next_mono; eauto).
  assert (Fr : fresh w' = next s') by reflexivity. assert (Fr0 : fresh w = next s) by reflexivity.
  assert (OpNew : forall n u, (o, r) = (Open n, Opened u) -> u = next s /\ next s' = S (next s)).
  { intros n u X. eapply open_step; [exact E|exact X]. }
  (* no event of the program mentions what is not opened yet *)
  assert (Hold' : forall u, holds (prog es ++ [(o, r)]) u -> (holds (prog es) u /\ (forall w, (o, r) = (Close w, Done) -> w <> u) /\ forall p f w, (o, r) = (Add p f (Some w), Answer true) -> w <> u)
     \/ exists n, (o, r) = (Open n, Opened u)).
  { intros u H. apply holds_split in H as (O & (B & C) & (B' & C')).
    destruct O as [n O]. apply in_snoc in O as [O|O]; [left|right; exists n; congruence].
    split; [split; [exists n; exact O|auto]|]. split; [intros v X -> ; apply B'; left; exact X|intros p f v X ->; apply (C' p f); left; exact X]. }
  assert (Views : forall j, j <> i -> exists ej l, runs ej (own (lib w j)) /\ (forall u, holds (prog es) u -> holds ej u) /\ runs (ej ++ l) (own (lib w' j)) /\
     forall x, In x l -> (exists n, x = (o, r) /\ o = Open n) \/ exists u, x = (Close u, Done) /\ (o = Close u \/ found s u)).
  { intros j D. destruct (v_runs _ _ V j) as (ej & Rj & Hj). exists ej.
    destruct (other_view debug ei s o s' r Ri Ali E (trees w j) ej) as (l & Rl & Fl).
    - exact Rj.
    - intros u F1 F2. apply D. symmetry. exact (v_apart _ _ V i j u F1 F2).
    - intros u ->. apply Hj. exact Al.
    - exists l. split; [exact Rj|]. split; [exact Hj|]. split; [|exact Fl]. unfold w'. rewrite (proj1 (lib_after_other w i _ j D)). exact Rl. }
  assert (Others2 : forall j p tail u, j <> i -> (finds w' j p tail u <-> finds w j p tail u)).
  { intros j p tail u D. destruct (Views j D) as (ej & l & Rj & _ & Rl & Fl). change (sees (own (lib w' j)) p tail u <-> sees (own (lib w j)) p tail u). eapply sees_plain; [exact Rj| |exact Rl].
    apply Forall_forall. intros x X. destruct (Fl x X) as [(n & -> & En)|(v & -> & _)]; [left; exists n; exact En|right; eauto]. }
  assert (Others : forall j u, j <> i -> (exported w' j u <-> exported w j u)).
  { intros j u D. unfold exported. rewrite !found_sees. split; intros (p & tail & X); exists p, tail; apply (Others2 j p tail u D); exact X. }
  split; [|exact Others2].
  assert (NotHeld : forall u, found s u -> ~ holds (prog es) u).
  { intros u F H. apply Hi in H. destruct (place _ _ u Ri (found_lt _ _ _ Ri F)) as [(_ & X & _)|[(_ & _ & X)|(_ & X & _)]]; contradiction. }
  constructor.
  - intros j. destruct (Nat.eq_dec j i) as [->|D].
    + exists (ei ++ [(o, r)]). rewrite Ei. split; [exact Ri'|]. rewrite prog_host. intros u H.
      destruct (Hold' u H) as [(H0 & B & C)|(n & X)].
      * apply holds_keep; [apply Hi, H0| |].
        -- intros [X|[]]. exact (B u X eq_refl).
        -- intros p f [X|[]]. exact (C p f u X eq_refl).
      * destruct (OpNew _ _ X) as [-> _]. rewrite X. apply holds_split. split; [exists n; apply in_or_app; right; left; reflexivity|].
        destruct (runs_Inv _ _ _ Ri) as (kt & km & kc & I). split; split.
        -- intros Y. apply (i_closing _ _ _ _ _ I) in Y. lia.
        -- intros p f Y. apply (i_adding _ _ _ _ _ I) in Y. lia.
        -- intros [Y|[]]. discriminate.
        -- intros p f [Y|[]]. discriminate.
    + destruct (Views j D) as (ej & l & Rj & Hj & Rl & Fl). exists (ej ++ l). split; [exact Rl|]. rewrite prog_host. intros u H.
      assert (Nadd : forall p f, ~ In (Add p f (Some u), Answer true) l).
      { intros p f X. destruct (Fl _ X) as [(n & Y & Z)|(v & Y & _)]; [|discriminate]. subst o. discriminate. }
      destruct (Hold' u H) as [(H0 & B & C)|(n & X)].
      * apply holds_keep; [apply Hj, H0| |exact Nadd].
        intros X. destruct (Fl _ X) as [(n & Y & Z)|(v & Y & Z)].
        -- subst o. discriminate.
        -- injection Y as <-. destruct Z as [->|Z]; [|exact (NotHeld u Z H0)].
           apply (B u); [|reflexivity]. f_equal. cbn [step] in E. destruct (destroy _ _ _ _) as [[k c]|] eqn:Dd; [congruence|].
           exfalso. destruct (runs_Inv _ _ _ Ri) as (kt & km & kc & I). destruct (number_held _ _ _ _ _ u I (Hi u H0)) as (m & km1 & Em & _ & Pm & Im).
           apply (lookup_in _ _ _ (i_num _ _ _ _ _ I)) in Im. rewrite Em in Dd. cbn [destroy] in Dd. apply Z.ltb_ge in Pm. rewrite Pm, Im in Dd. discriminate.
      * destruct (OpNew _ _ X) as [-> Nx']. injection X as -> ->.
        assert (Ol : opened (ej ++ l) (next s)) by (apply (lt_opened _ _ _ Rl); change (next (own (lib w' j))) with (next s'); lia).
        apply holds_split. split; [exact Ol|]. destruct (runs_Inv _ _ _ Rj) as (kt & km & kc & J). change (next s) with (next (own (lib w j))). split; split.
        -- intros Y. apply (i_closing _ _ _ _ _ J) in Y. lia.
        -- intros p f Y. apply (i_adding _ _ _ _ _ J) in Y. lia.
        -- intros Y. destruct (Fl _ Y) as [(m & Z & _)|(v & Z & [Q|Q])]; [discriminate|discriminate|]. injection Z as <-.
           apply (found_lt _ _ _ Ri) in Q. change (next (own (lib w j))) with (next s) in Q. lia.
        -- exact Nadd.
  - intros j. destruct (Nat.eq_dec j i) as [->|D].
    + unfold w'. rewrite lib_after_same. cbn [net]. rewrite only_same, settings_app. cbn. rewrite app_nil_r. exact (v_net _ _ V i).
    + unfold w'. rewrite (proj2 (lib_after_other w i _ j D)). rewrite only_other by auto. exact (v_net _ _ V j).
  - assert (Key : forall j u, j <> i -> exported w' i u -> ~ exported w' j u).
    { intros j u D F1 F2. apply (Others j u D) in F2. unfold exported in F1. rewrite Ei in F1.
      assert (Lt : (u < next s)%nat) by (destruct (v_runs _ _ V j) as (ej & Rj & _); exact (found_lt _ _ _ Rj F2)).
      destruct (place _ _ u Ri' (found_lt _ _ _ Ri' F1)) as [(_ & _ & X)|[(_ & _ & X)|(T' & Nh & _)]]; [contradiction|contradiction|].
      destruct (place _ _ u Ri Lt) as [(T & _ & _)|[(_ & Hu & _)|(_ & _ & F0)]].
      - (* closed in between *)
        destruct (v_runs _ _ V j) as (ej & Rj & _).
        destruct (place _ _ u Rj (found_lt _ _ _ Rj F2)) as [(_ & _ & X)|[(_ & _ & X)|(X & _)]]; [contradiction|contradiction|].
        change (times_closed (own (lib w j)) u) with (times_closed s u) in X. lia.
      - (* given to i just now *)
        assert (Given : exists p f, (o, r) = (Add p f (Some u), Answer true) \/ (o, r) = (Close u, Done)).
        { destruct o as [n|p f [x|]|x|]; try (exfalso; apply Nh, holds_same; [congruence..|exact Hu]).
          - exfalso. apply Nh. apply holds_keep; [exact Hu|intros [X|[]]; discriminate|intros ? ? [X|[]]; discriminate].
          - destruct (Nat.eq_dec x u) as [->|Dx].
            + destruct r as [?|[|]| | |]; try (exfalso; apply Nh, holds_same; [congruence..|exact Hu]). eauto.
            + exfalso. apply Nh. apply holds_keep; [exact Hu|intros [X|[]]; discriminate|]. intros p0 f0 [X|[]]. congruence.
          - destruct (Nat.eq_dec x u) as [->|Dx].
            + destruct r; try (exfalso; apply Nh, holds_same; [congruence..|exact Hu]). exists [], true. auto.
            + exfalso. apply Nh. apply holds_keep; [exact Hu| |intros ? ? [X|[]]; discriminate]. intros [X|[]]. congruence. }
        destruct Given as (p & f & Gv).
        assert (Hp : holds (prog es) u) by (destruct Gv as [Gv|Gv]; injection Gv as -> ->; cbn [allowed] in Al; [apply Al; reflexivity|exact Al]).
        destruct (v_runs _ _ V j) as (ej & Rj & Hj). apply Hj in Hp.
        destruct (place _ _ u Rj (found_lt _ _ _ Rj F2)) as [(_ & X & _)|[(_ & _ & X)|(_ & X & _)]]; contradiction.
      - apply D. symmetry. exact (v_apart _ _ V i j u F0 F2). }
    intros j k u F1 F2. destruct (Nat.eq_dec j i) as [->|Dj], (Nat.eq_dec k i) as [->|Dk]; auto.
    + exfalso. exact (Key k u Dk F1 F2).
    + exfalso. exact (Key j u Dj F2 F1).
    + apply (v_apart _ _ V j k u); [apply (Others j u Dj), F1|apply (Others k u Dk), F2].
  - rewrite prog_host. intros u O Nh C.
    assert (Lt : opened (prog es) u).
    { destruct O as [n O]. apply in_snoc in O as [O|O]; [exists n; exact O|]. exfalso. apply Nh. destruct (OpNew n u O) as [-> _]. rewrite O.
      apply holds_split. split; [exists n; apply in_or_app; right; left; reflexivity|]. split; split.
      - intros Y. apply (v_closing _ _ V) in Y. lia.
      - intros p f Y. apply (v_adding _ _ V) in Y. lia.
      - intros [Y|[]]. discriminate.
      - intros p f [Y|[]]. discriminate. }
    assert (C' : times_closed s' u = 0%nat) by exact C.
    pose proof (v_opened _ _ V u Lt) as Lu. rewrite Fr0 in Lu.
    destruct (place _ _ u Ri Lu) as [(T & Nhi & Nf)|[(T & Hh & Nf)|(T & Nhi & Ff)]].
    + (* it stays closed *)
      destruct (place _ _ u Ri') as [(X & _)|[(_ & X & _)|(_ & _ & X)]]; [lia|lia| |exists i; unfold exported; rewrite Ei; exact X].
      exfalso. apply Nhi. eapply holds_back; [|exact X]. apply (lt_opened _ _ _ Ri), Lu.
    + destruct (place _ _ u Ri') as [(X & _)|[(_ & X & _)|(_ & _ & X)]]; [lia|lia| |exists i; unfold exported; rewrite Ei; exact X].
      destruct (v_some _ _ V u Lt) as (k & Fk); [|exact T|].
      { intros Hp. apply Nh. apply holds_split in X as (_ & _ & (B & D)). apply holds_keep; [exact Hp|exact B|exact D]. }
      destruct (Nat.eq_dec k i) as [->|D]; [contradiction|]. exists k. apply (Others k u D). exact Fk.
    + destruct (place _ _ u Ri') as [(X & _)|[(_ & X & _)|(_ & _ & X)]]; [lia|lia| |exists i; unfold exported; rewrite Ei; exact X].
      exfalso. apply Nhi. eapply holds_back; [|exact X]. apply (lt_opened _ _ _ Ri), Lu.
  - rewrite prog_host. intros u [n O]. apply in_snoc in O as [O|O].
    + assert (X : (u < fresh w)%nat) by (apply (v_opened _ _ V); exists n; exact O). lia.
    + destruct (OpNew n u O) as [-> Nx1]. lia.
  - rewrite prog_host. intros u r0 X. apply in_snoc in X as [X|X]; [apply (v_closing _ _ V) in X; lia|].
    injection X as -> ->. cbn [allowed] in Al. assert (Y : (u < fresh w)%nat) by (apply (v_opened _ _ V), Al). lia.
  - rewrite prog_host. intros p f u r0 X. apply in_snoc in X as [X|X]; [apply (v_adding _ _ V) in X; lia|].
    injection X as -> ->. cbn [allowed] in Al. destruct Al as (_ & _ & Al). assert (Y : (u < fresh w)%nat) by (apply (v_opened _ _ V), Al; reflexivity). lia.
Qed.

Lemma prog_set es i no p r : prog (es ++ [(i, (Setting no p, r))]) = prog es.
Proof. rewrite all_app, program_app. cbn. apply app_nil_r. Qed.
Lemma linv_set es w i no p : linv es w -> linv (es ++ [(i, (Setting no p, Noted))]) (after w i (Gate (own (lib w i)) (set_policy (net (lib w i)) no p))).
Proof.
  intros V. set (w' := after _ _ _).
  assert (Sm : forall j, own (lib w' j) = own (lib w j)).
  { intros j. unfold w'. destruct (Nat.eq_dec j i) as [->|D]; [rewrite lib_after_same; reflexivity|]. rewrite (proj1 (lib_after_other w i _ j D)). reflexivity. }
  assert (Ex : forall j u, exported w' j u <-> exported w j u) by (intros j u; unfold exported; rewrite Sm; reflexivity).
  constructor; try rewrite prog_set.
  - intros j. rewrite Sm. exact (v_runs _ _ V j).
  - intros j. destruct (Nat.eq_dec j i) as [->|D].
    + unfold w'. rewrite lib_after_same, only_same, settings_app. cbn [net]. rewrite (v_net _ _ V i). unfold policy_after. rewrite fold_left_app. reflexivity.
    + unfold w'. rewrite (proj2 (lib_after_other w i _ j D)), only_other by auto. exact (v_net _ _ V j).
  - intros j k u F1 F2. apply Ex in F1, F2. exact (v_apart _ _ V j k u F1 F2).
  - intros u O N C. unfold closings in C. rewrite Sm in C. destruct (v_some _ _ V u O N C) as [k F]. exists k. apply Ex. exact F.
  - exact (v_opened _ _ V).
  - exact (v_closing _ _ V).
  - exact (v_adding _ _ V).
Qed.

Lemma serve_step es w i q g' r : linv es w -> gallowed (all es) (lib w i) (Serve q) -> gstep debug (heaps i) (Serve q) (lib w i) = (g', r) ->
  net g' = net (lib w i) /\ exists evs, r = Served evs /\ fine_run debug (settings (only i es)) (own (lib w i)) q evs (own g').
Proof.
  intros V Al E. destruct (v_runs _ _ V i) as (ei & Ri & _).
  destruct (request_step0 debug (shm i) (size i) (hdr i) (M i) _ _ _ _ _ _ _ Ri (v_net _ _ V i) Al E) as (N & evs & Er & _ & FR). eauto.
Qed.

Lemma linv_serve es w i q g' evs : linv es w -> net g' = net (lib w i) -> fine_run debug (settings (only i es)) (own (lib w i)) q evs (own g') ->
  linv (es ++ [(i, (Serve q, Served evs))]) (after w i g') /\ forall j p tail u, finds (after w i g') j p tail u <-> finds w j p tail u.
Proof.
  intros V N FR. set (w' := after w i g'). destruct (v_runs _ _ V i) as (ei & Ri & Hi).
  destruct (fr_ghost _ _ _ _ _ _ FR _ Ri) as (l & F & Rl).
  assert (Views : forall j ej, runs ej (own (lib w j)) -> runs (ej ++ l) (own (lib w' j))).
  { intros j ej Rj. pose proof (request_view debug ei (own (lib w i)) l Ri F (trees w j) ej Rj (own g') Rl) as X.
    unfold w'. destruct (Nat.eq_dec j i) as [->|D]; [|rewrite (proj1 (lib_after_other w i _ j D)); exact X].
    rewrite lib_after_same. replace (own g') with (under (trees w i) (own g')); [exact X|].
    pose proof (fr_tree _ _ _ _ _ _ FR) as T. cbn [lib own tree] in T. destruct (own g') as [t k n c]. cbn in T. subst t. reflexivity. }
  assert (Ex2 : forall j p tail u, finds w' j p tail u <-> finds w j p tail u).
  { intros j p tail u. destruct (v_runs _ _ V j) as (ej & Rj & _). change (sees (own (lib w' j)) p tail u <-> sees (own (lib w j)) p tail u).
    eapply sees_plain; [exact Rj|eapply own_plain; exact F|apply Views; exact Rj]. }
  assert (Ex : forall j u, exported w' j u <-> exported w j u).
  { intros j u. unfold exported. rewrite !found_sees. split; intros (p & tail & X); exists p, tail; apply (Ex2 j p tail u); exact X. }
  assert (Nx : (fresh w <= fresh w')%nat).
  { change (fresh w) with (next (own (lib w i))). change (fresh w') with (next (own g')). eapply next_mono; [exact Ri|exact Rl]. }
  split; [|exact Ex2]. constructor; try rewrite prog_serve.
  - intros j. destruct (v_runs _ _ V j) as (ej & Rj & Hj). exists (ej ++ l). split; [apply Views; exact Rj|].
    intros u H. pose proof (v_opened _ _ V u (proj1 H)) as Lt. change (fresh w) with (next (own (lib w i))) in Lt. rewrite Forall_forall in F.
    apply holds_keep; [apply Hj, H| |].
    + intros X. destruct (F _ X) as [(n & v & Y & _)|(v & Y & Le)]; [discriminate|]. injection Y as <-. lia.
    + intros p f X. destruct (F _ X) as [(n & v & Y & _)|(v & Y & Le)]; discriminate.
  - intros j. destruct (Nat.eq_dec j i) as [->|D].
    + unfold w'. rewrite lib_after_same, only_same, settings_app. cbn. rewrite app_nil_r, N. exact (v_net _ _ V i).
    + unfold w'. rewrite (proj2 (lib_after_other w i _ j D)), only_other by auto. exact (v_net _ _ V j).
  - intros j k u F1 F2. apply Ex in F1, F2. exact (v_apart _ _ V j k u F1 F2).
  - intros u O Nh C. pose proof (v_opened _ _ V u O) as Lt. destruct (v_some _ _ V u O Nh) as [k Fk]; [|exists k; apply Ex; exact Fk].
    change (closings w' u) with (times_closed (own (lib w' i)) u) in C. change (closings w u) with (times_closed (own (lib w i)) u).
    change (fresh w) with (next (own (lib w i))) in Lt. pose proof (Views i ei Ri) as Rv.
    destruct (place _ _ u Ri Lt) as [(T & Nhi & Nf)|[(T & _)|(T & _)]]; [|exact T|exact T]. exfalso.
    destruct (place _ _ u Rv) as [(X & _)|[(_ & X & _)|(_ & _ & X)]]; [|lia| |].
    + change (next (own (lib w' i))) with (fresh w'). change (next (own (lib w i))) with (fresh w) in Lt. lia.
    + apply Nhi. eapply holds_back; [|exact X]. apply (lt_opened _ _ _ Ri), Lt.
    + apply Nf. exact (proj1 (Ex i u) X).
  - intros u O. apply (v_opened _ _ V) in O. lia.
  - intros u r O. apply (v_closing _ _ V) in O. lia.
  - intros p f u r O. apply (v_adding _ _ V) in O. lia.
Qed.

Lemma lruns_linv es w : lruns es w -> linv es w.
Proof.
  induction 1 as [|es w i o w' r R V Al E]; [exact linv_0|].
  unfold lstep in E. destruct (gstep debug (heaps i) o (lib w i)) as [g' r'] eqn:G. injection E as <- <-.
  destruct o as [o|no p|q].
  - cbn [gstep] in G. destruct (step debug o (own (lib w i))) as [s' ro] eqn:S. injection G as <- <-. eapply linv_host; [exact V|exact Al|exact S].
  - cbn [gstep] in G. injection G as <- <-. apply linv_set. exact V.
  - destruct (serve_step _ _ _ _ _ _ V Al G) as (N & evs & -> & FR). apply linv_serve; auto.
Qed.
End HISTORY.
