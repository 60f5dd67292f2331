From Coq Require Import List ZArith Bool Lia Permutation.
From Verif Require Import Base PathModel PathSpec FileTreeModel FileTreeSpec FileTreeProof HandleModel OwnModel OwnSpec.
Import ListNotations.
Local Open Scope Z_scope.

(** Induction over entries and the directories in them. *)
Lemma entry_ind' (P : entry -> Prop) :
  (forall d, Forall (fun x => P (snd x)) d -> P (ETree d)) ->
  (forall fd, P (EFile fd)) -> (forall fd, P (EDirH fd)) -> forall e, P e.
Proof.
  intros HT HF HD. fix IH 1. intros [d|fd|fd]; [|apply HF|apply HD].
  apply HT. induction d as [|[n e] d IHd]; constructor; [apply IH|exact IHd].
Qed.

Lemma tree_fds_cons n e d : tree_fds ((n, e) :: d) = entry_fds e ++ tree_fds d.
Proof. reflexivity. Qed.

Lemma dset_fds d c e : Permutation (tree_fds (dset d c e) ++ replaced d c) (entry_fds e ++ tree_fds d).
Proof.
  unfold replaced. induction d as [|[n e0] d IH]; cbn [dset dfind].
  - rewrite tree_fds_cons. cbn. rewrite !app_nil_r. reflexivity.
  - destruct (text_eq_dec n c); rewrite !tree_fds_cons.
    + rewrite <- !app_assoc. apply Permutation_app_head. apply Permutation_app_comm.
    + rewrite <- app_assoc. rewrite IH. rewrite !app_assoc. apply Permutation_app_tail, Permutation_app_comm.
Qed.

(** The functions with and without the destroyed Handles agree. *)
Lemma own_loop_is fuel p it fin d lf :
  add_loop fuel p it fin d lf = obind (own_loop fuel p it fin d lf) (fun r => Ret (fst r)).
Proof.
  revert it d. induction fuel as [|fuel IH]; intros it d; [reflexivity|]. cbn [add_loop own_loop].
  destruct (it <? fin).
  - destruct (substr _ _ _); cbn [obind]; try reflexivity.
    destruct (get_dir d a); try reflexivity.
    + rewrite IH. destruct (own_loop fuel p _ fin [] lf) as [[[ok s] dead]| | | |]; reflexivity.
    + rewrite IH. destruct (own_loop fuel p _ fin d0 lf) as [[[ok s] dead]| | | |]; reflexivity.
  - destruct (substr _ _ _); reflexivity.
Qed.
Lemma own_handle_is d p lf : add_handle d p lf = obind (own_handle d p lf) (fun r => Ret (fst r)).
Proof. apply own_loop_is. Qed.

(** Where the Handles are after an add. *)
Lemma own_loop_fds fuel p it fin d lf ok d' dead :
  own_loop fuel p it fin d lf = Ret (ok, d', dead) ->
  Permutation (tree_fds d' ++ dead) ((if ok then entry_fds lf else []) ++ tree_fds d).
Proof.
  revert it d d' dead. induction fuel as [|fuel IH]; intros it d d' dead E; [discriminate|]. cbn [own_loop] in E.
  destruct (it <? fin).
  - destruct (substr _ _ _) as [c| | | |]; try discriminate. cbn [obind] in E.
    destruct (get_dir d c) as [|fd|sub] eqn:G.
    + destruct (own_loop fuel p _ fin [] lf) as [[[ok' s] dd]| | | |] eqn:L; try discriminate.
      cbn in E. injection E as <- <- <-. apply IH in L. cbn in L. rewrite app_nil_r in L.
      rewrite app_assoc. rewrite dset_fds. cbn [entry_fds]. fold (tree_fds s). rewrite <- app_assoc.
      rewrite (Permutation_app_comm (tree_fds d)), app_assoc, L. reflexivity.
    + injection E as <- <- <-. rewrite app_nil_r. reflexivity.
    + destruct (own_loop fuel p _ fin sub lf) as [[[ok' s] dd]| | | |] eqn:L; try discriminate.
      cbn in E. injection E as <- <- <-. apply IH in L.
      assert (R : replaced d c = tree_fds sub).
      { unfold get_dir in G. unfold replaced. destruct (dfind d c) as [[x|x|x]|]; try discriminate. now injection G as ->. }
      pose proof (dset_fds d c (ETree s)) as D. rewrite R in D. cbn [entry_fds] in D. fold (tree_fds s) in D.
      apply (Permutation_app_inv_r (tree_fds sub)).
      rewrite <- app_assoc, (Permutation_app_comm dd), app_assoc, D.
      rewrite <- app_assoc, (Permutation_app_comm (tree_fds d)), app_assoc, L.
      rewrite <- !app_assoc. apply Permutation_app_head, Permutation_app_comm.
  - destruct (substr _ _ _) as [c| | | |]; try discriminate. cbn [obind] in E. injection E as <- <- <-. apply dset_fds.
Qed.
Lemma own_handle_fds d p lf ok d' dead :
  own_handle d p lf = Ret (ok, d', dead) ->
  Permutation (tree_fds d' ++ dead) ((if ok then entry_fds lf else []) ++ tree_fds d).
Proof. apply own_loop_fds. Qed.

(** A directory has one entry per name. *)
Inductive wf : entry -> Prop :=
| wf_file fd : wf (EFile fd)
| wf_dir fd : wf (EDirH fd)
| wf_tree d : NoDup (map fst d) -> Forall (fun x => wf (snd x)) d -> wf (ETree d).

Lemma dset_keys d c e x : In x (map fst (dset d c e)) <-> x = c \/ In x (map fst d).
Proof.
  induction d as [|[n e0] d IH]; cbn; [intuition congruence|].
  destruct (text_eq_dec n c); cbn; [subst; intuition congruence|]. rewrite IH. intuition congruence.
Qed.
Lemma dset_wf d c e : wf (ETree d) -> wf e -> wf (ETree (dset d c e)).
Proof.
  intros W We. inversion W as [| |d0 N F]; subst. clear W. constructor.
  - induction d as [|[n e0] d IH]; cbn; [repeat constructor; auto|].
    inversion N; subst. inversion F; subst. destruct (text_eq_dec n c); cbn; constructor; auto.
    rewrite dset_keys. intros [->|X]; auto.
  - induction d as [|[n e0] d IH]; cbn; [repeat constructor; auto|].
    inversion N; subst. inversion F; subst. destruct (text_eq_dec n c); cbn; constructor; auto.
Qed.
Lemma dfind_wf d c e : wf (ETree d) -> dfind d c = Some e -> wf e.
Proof.
  intros W. inversion W as [| |d0 N F]; subst. clear W N.
  induction d as [|[n e0] d IH]; cbn; [discriminate|]. inversion F; subst.
  destruct (text_eq_dec n c); [intros [= <-]; auto|auto].
Qed.
Lemma own_loop_wf fuel p it fin d lf ok d' dead :
  own_loop fuel p it fin d lf = Ret (ok, d', dead) -> wf (ETree d) -> wf lf -> wf (ETree d').
Proof.
  intros E W Wl. revert it d d' dead W E. induction fuel as [|fuel IH]; intros it d d' dead W E; [discriminate|].
  cbn [own_loop] in E. destruct (it <? fin).
  - destruct (substr _ _ _) as [c| | | |]; try discriminate. cbn [obind] in E.
    destruct (get_dir d c) as [|fd|sub] eqn:G.
    + destruct (own_loop fuel p _ fin [] lf) as [[[ok' s] dd]| | | |] eqn:L; try discriminate.
      cbn in E. injection E as <- <- <-. apply dset_wf; auto. eapply IH; [|exact L]. repeat constructor.
    + now injection E as <- <- <-.
    + destruct (own_loop fuel p _ fin sub lf) as [[[ok' s] dd]| | | |] eqn:L; try discriminate.
      cbn in E. injection E as <- <- <-. apply dset_wf; auto. eapply IH; [|exact L].
      unfold get_dir in G. destruct (dfind d c) as [[x|x|x]|] eqn:F; try discriminate. injection G as ->.
      eapply dfind_wf; eauto.
  - destruct (substr _ _ _) as [c| | | |]; try discriminate. cbn [obind] in E. injection E as <- <- <-. now apply dset_wf.
Qed.

(** In such a tree every Handle can be looked up. *)
Definition node_fd (n : node) : list Z := match n with AFile fd | ADir fd => [fd] | _ => [] end.
Definition epath (e : entry) (q : list text) : node :=
  match e with
  | ETree d => node_at d q
  | EFile fd => match q with [] => AFile fd | _ => Absent end
  | EDirH fd => match q with [] => ADir fd | _ => Absent end
  end.
Lemma node_at_cons d c q : node_at d (c :: q) = match dfind d c with Some e => epath e q | None => Absent end.
Proof. cbn. destruct (dfind d c) as [[| |]|]; reflexivity. Qed.
Lemma dfind_in d c e : dfind d c = Some e -> In (c, e) d.
Proof.
  induction d as [|[n e0] d IH]; cbn; [discriminate|]. destruct (text_eq_dec n c); [intros [= <-]; subst; auto|auto].
Qed.
Lemma in_dfind d c e : NoDup (map fst d) -> In (c, e) d -> dfind d c = Some e.
Proof.
  induction d as [|[n e0] d IH]; cbn; [intros _ []|]. intros N. inversion N; subst. intros [X|X].
  - injection X as -> ->. destruct (text_eq_dec c c); congruence.
  - destruct (text_eq_dec n c); [|auto]. subst. apply (in_map fst) in X. contradiction.
Qed.
Lemma visible_in e : wf e -> forall fd, In fd (entry_fds e) <-> exists q, In fd (node_fd (epath e q)).
Proof.
  induction e as [d IH|f|f] using entry_ind'; intros W fd.
  - inversion W as [| |d0 N F]; subst. cbn [entry_fds epath]. rewrite in_flat_map. split.
    + intros ([c e] & I1 & I2). rewrite Forall_forall in IH, F. cbn in I2.
      apply (IH _ I1 (F _ I1)) in I2 as (q & I2). exists (c :: q). rewrite node_at_cons, (in_dfind _ _ _ N I1). exact I2.
    + intros ([|c q] & I1); [destruct I1|]. rewrite node_at_cons in I1. destruct (dfind d c) as [e|] eqn:E; [|destruct I1].
      apply dfind_in in E. exists (c, e). split; auto. rewrite Forall_forall in IH, F. apply (IH _ E (F _ E)). eauto.
  - cbn. split; [intros [<-|[]]; exists []; cbn; auto|]. intros ([|c q] & I1); cbn in I1; tauto.
  - cbn. split; [intros [<-|[]]; exists []; cbn; auto|]. intros ([|c q] & I1); cbn in I1; tauto.
Qed.
Lemma visible_tree d fd : wf (ETree d) -> (In fd (tree_fds d) <-> exists q, In fd (node_fd (node_at d q))).
Proof. exact (fun W => visible_in (ETree d) W fd). Qed.
Lemma found_tree d fd : wf (ETree d) -> (In fd (tree_fds d) <-> exists p tail, lookup_file d p = Some (fd, tail)).
Proof.
  intros W. rewrite (visible_tree _ _ W). split.
  - intros (q & I1). destruct (node_at d q) as [| |x|x] eqn:E; cbn in I1; try tauto; destruct I1 as [->|[]].
    + exists (mkPath true q), empty_path. apply lookup_some. split; [reflexivity|]. left. auto.
    + exists (mkPath true (q ++ [[]])), (path_of_range [[]]). apply lookup_some. split; [reflexivity|]. right.
      split; [discriminate|]. exists q. auto.
  - intros ([a cs] & tail & L). apply lookup_some in L as (_ & [(_ & E)|(_ & q & _ & E)]); eexists; rewrite E; cbn; auto.
Qed.

(** ** The kernel's table *)
Lemma lookup_in n (k : list (Z * nat)) u : NoDup (map fst k) -> (lookup n k = Some u <-> In (n, u) k).
Proof.
  induction k as [|[m w] k IH]; cbn; [split; [discriminate|intros []]|].
  intros N. inversion N as [|? ? X Y]; subst. destruct (Z.eqb_spec m n) as [->|D].
  - split; [intros [= ->]; auto|]. intros [E|I1]; [congruence|]. apply (in_map fst) in I1. contradiction.
  - rewrite IH by auto. split; [auto|]. intros [E|I1]; [congruence|auto].
Qed.
Lemma lookup_none n (k : list (Z * nat)) : lookup n k = None <-> ~ In n (map fst k).
Proof.
  induction k as [|[m w] k IH]; cbn; [tauto|]. destruct (Z.eqb_spec m n) as [->|D]; [split; [discriminate|tauto]|].
  rewrite IH. tauto.
Qed.
Lemma number_in u (k : list (Z * nat)) n : NoDup (map snd k) -> In (n, u) k -> number u k = n.
Proof.
  induction k as [|[m w] k IH]; cbn; [intros _ []|]. intros N. inversion N as [|? ? X Y]; subst.
  intros [E|I1]; [injection E as -> ->; now rewrite Nat.eqb_refl|].
  destruct (Nat.eqb_spec w u) as [->|D]; [|auto]. apply (in_map snd) in I1. contradiction.
Qed.
Lemma drop_perm n u (k : list (Z * nat)) : lookup n k = Some u -> Permutation k ((n, u) :: drop n k).
Proof.
  induction k as [|[m w] k IH]; cbn; [discriminate|]. destruct (Z.eqb_spec m n) as [->|D]; [intros [= ->]; reflexivity|].
  intros L. rewrite (IH L) at 1. apply perm_swap.
Qed.

Definition pos (l : list Z) : list Z := filter (fun n => 0 <=? n) l.
Lemma pos_app a b : pos (a ++ b) = pos a ++ pos b.
Proof. apply filter_app. Qed.
Lemma pos_perm a b : Permutation a b -> Permutation (pos a) (pos b).
Proof.
  induction 1; cbn; auto.
  - destruct (0 <=? x); auto.
  - destruct (0 <=? x), (0 <=? y); auto. apply perm_swap.
  - etransitivity; eauto.
Qed.
Lemma in_pos n l : In n (pos l) <-> In n l /\ 0 <= n.
Proof. unfold pos. rewrite filter_In, Z.leb_le. tauto. Qed.

(** Destroying Handles whose descriptors are open closes exactly those. *)
Definition gone (kd : list (Z * nat)) : list (Z * option nat) := map (fun x => (fst x, Some (snd x))) kd.
Lemma destroy_ok debug fds : forall k c kd kr,
  Permutation k (kd ++ kr) -> NoDup (map fst k) -> Permutation (map fst kd) (pos fds) ->
  exists k' kd', destroy debug fds k c = Some (k', c ++ gone kd') /\ Permutation k' kr /\ Permutation kd' kd.
Proof.
  induction fds as [|n fds IH]; intros k c kd kr P N F.
  - cbn in F. apply Permutation_sym, Permutation_nil in F. destruct kd; [|discriminate]. exists k, []. cbn. rewrite app_nil_r. auto.
  - cbn in F. cbn [destroy]. destruct (Z.ltb_spec n 0); destruct (Z.leb_spec 0 n); try lia; [apply IH; auto|].
    assert (I1 : In n (map fst kd)) by (rewrite F; left; reflexivity).
    apply in_map_iff in I1 as ([m u] & E & I1). cbn in E. subst m.
    assert (L : lookup n k = Some u).
    { apply lookup_in; auto. rewrite P. apply in_or_app. auto. }
    rewrite L. apply in_split in I1 as (a & b & ->).
    assert (D : Permutation (drop n k) ((a ++ b) ++ kr)).
    { apply (Permutation_cons_inv (a := (n, u))). rewrite <- (drop_perm _ _ _ L), P. rewrite <- !app_assoc. symmetry. apply Permutation_middle. }
    destruct (IH (drop n k) (c ++ [(n, Some u)]) (a ++ b) kr) as (k' & kd' & E & P1 & P2); auto.
    + apply (Permutation_map fst) in D. eapply Permutation_NoDup; [symmetry; exact D|].
      eapply Permutation_NoDup in N; [|exact (Permutation_map fst P)]. rewrite !map_app in *. cbn in N.
      rewrite <- app_assoc in *. cbn in N. now apply NoDup_remove_1 in N.
    + rewrite map_app in *. cbn in F. rewrite <- Permutation_middle in F. now apply Permutation_cons_inv in F.
    + exists k', ((n, u) :: kd'). rewrite E. split; [|split; auto].
      * cbn. now rewrite <- app_assoc.
      * rewrite P2. apply Permutation_middle.
Qed.

(** ** The invariant *)
Definition fds_of (o : option dir) : list Z := match o with Some t => tree_fds t | None => [] end.
Definition opened (es : list (op * result)) (u : nat) : Prop := exists n, In (Open n, Opened u) es.

Record Inv (es : list (op * result)) (s : state) (kt km kc : list (Z * nat)) : Prop := {
  i_split : Permutation (kern s) (kt ++ km);
  i_num : NoDup (map fst (kern s));
  i_nonneg : forall n u, In (n, u) (kern s) -> 0 <= n;
  i_tree : Permutation (map fst kt) (pos (fds_of (tree s)));
  i_neg : forall n, In n (fds_of (tree s)) -> n < 0 -> n = -1;
  i_wf : forall t, tree s = Some t -> wf (ETree t);
  i_mine : forall u, In u (map snd km) <-> holds es u;
  i_closed : closes s = gone kc;
  i_ids : Permutation (map snd (kern s) ++ map snd kc) (seq 0 (next s));
  i_opened : forall u, opened es u <-> (u < next s)%nat;
  i_closing : forall u r, In (Close u, r) es -> (u < next s)%nat;
  i_adding : forall p file u r, In (Add p file (Some u), r) es -> (u < next s)%nat }.

Lemma i_ids_nodup es s kt km kc : Inv es s kt km kc -> NoDup (map snd (kern s) ++ map snd kc).
Proof. intros H. eapply Permutation_NoDup; [symmetry; exact (i_ids _ _ _ _ _ H)|]. apply seq_NoDup. Qed.
Lemma NoDup_app_l {A} (a b : list A) : NoDup (a ++ b) -> NoDup a.
Proof. induction a as [|x a IH]; cbn; [constructor|]. intros N. inversion N; subst. constructor; auto. rewrite in_app_iff in *. tauto. Qed.

Lemma in_snoc {A} (x y : A) l : In x (l ++ [y]) <-> In x l \/ y = x.
Proof. rewrite in_app_iff. cbn. tauto. Qed.

Lemma holds_same es o r u :
  (forall n w, (o, r) <> (Open n, Opened w)) -> (forall w, (o, r) <> (Close w, Done)) ->
  (forall p f w, (o, r) <> (Add p f (Some w), Answer true)) ->
  (holds (es ++ [(o, r)]) u <-> holds es u).
Proof.
  intros H1 H2 H3. unfold holds. split.
  - intros ((n & A) & B & C). apply in_snoc in A as [A|A]; [|now apply H1 in A]. split; [eauto|]. split.
    + intros X. apply B, in_snoc. auto.
    + intros p f X. apply (C p f), in_snoc. auto.
  - intros ((n & A) & B & C). split; [exists n; apply in_snoc; auto|]. split.
    + intros X. apply in_snoc in X as [X|X]; [auto|now apply H2 in X].
    + intros p f X. apply in_snoc in X as [X|X]; [now apply C in X|now apply H3 in X].
Qed.
Lemma holds_close es u w : holds (es ++ [(Close u, Done)]) w <-> holds es w /\ w <> u.
Proof.
  unfold holds. split.
  - intros ((n & A) & B & C). apply in_snoc in A as [A|A]; [|discriminate]. split; [split; [eauto|split]|].
    + intros X. apply B, in_snoc. auto.
    + intros p f X. apply (C p f), in_snoc. auto.
    + intros ->. apply B, in_snoc. auto.
  - intros (((n & A) & B & C) & D). split; [exists n; apply in_snoc; auto|]. split.
    + intros X. apply in_snoc in X as [X|X]; [auto|]. congruence.
    + intros p f X. apply in_snoc in X as [X|X]; [now apply C in X|discriminate].
Qed.
Lemma holds_add es p f u w : holds (es ++ [(Add p f (Some u), Answer true)]) w <-> holds es w /\ w <> u.
Proof.
  unfold holds. split.
  - intros ((n & A) & B & C). apply in_snoc in A as [A|A]; [|discriminate]. split; [split; [eauto|split]|].
    + intros X. apply B, in_snoc. auto.
    + intros p' f' X. apply (C p' f'), in_snoc. auto.
    + intros ->. apply (C p f), in_snoc. auto.
  - intros (((n & A) & B & C) & D). split; [exists n; apply in_snoc; auto|]. split.
    + intros X. apply in_snoc in X as [X|X]; [auto|discriminate].
    + intros p' f' X. apply in_snoc in X as [X|X]; [now apply C in X|]. congruence.
Qed.

Lemma split_map {A B} (f : A -> B) l a b :
  Permutation (map f l) (a ++ b) -> exists la lb, Permutation l (la ++ lb) /\ map f la = a /\ map f lb = b.
Proof.
  intros P. apply Permutation_sym, Permutation_map_inv in P as (l3 & E & P). symmetry in E.
  apply map_eq_app in E as (la & lb & -> & <- & <-). eauto.
Qed.

Lemma gone_app a b : gone (a ++ b) = gone a ++ gone b.
Proof. apply map_app. Qed.

(** Common part of the three operations that destroy Handles. *)
Lemma Inv_destroy debug es s kt km kc fds kd kt' km' :
  Inv es s kt km kc -> Permutation (kern s) (kd ++ kt' ++ km') -> Permutation (map fst kd) (pos fds) ->
  exists k kd', destroy debug fds (kern s) (closes s) = Some (k, gone (kc ++ kd')) /\
    Permutation k (kt' ++ km') /\ Permutation kd' kd /\ NoDup (map fst k) /\
    (forall n u, In (n, u) k -> 0 <= n) /\ Permutation (map snd k ++ map snd (kc ++ kd')) (seq 0 (next s)).
Proof.
  intros H P F. destruct (destroy_ok debug fds (kern s) (closes s) kd (kt' ++ km') P (i_num _ _ _ _ _ H) F) as (k & kd' & E & P1 & P2).
  exists k, kd'. rewrite E, (i_closed _ _ _ _ _ H), <- gone_app.
  assert (N : NoDup (map fst k)).
  { pose proof (i_num _ _ _ _ _ H) as N. eapply Permutation_NoDup in N; [|exact (Permutation_map fst P)].
    rewrite map_app in N. apply (Permutation_NoDup (Permutation_app_comm _ _)), NoDup_app_l in N.
    eapply Permutation_NoDup; [|exact N]. now apply Permutation_map. }
  repeat split; auto.
  - intros n u I1. apply (i_nonneg _ _ _ _ _ H n u). rewrite P, <- P1. apply in_or_app. auto.
  - rewrite <- (i_ids _ _ _ _ _ H). rewrite P, P1, (map_app snd kc), P2, (map_app snd kd).
    rewrite (Permutation_app_comm (map snd kc)), app_assoc. apply Permutation_app_tail, Permutation_app_comm.
Qed.

Lemma Inv_init : Inv [] init [] [] [].
Proof.
  constructor; cbn.
  - constructor.
  - constructor.
  - intros n u [].
  - constructor.
  - intros n [].
  - intros t [= <-]. repeat constructor.
  - intros u. split; [intros []|intros ((n & []) & _)].
  - reflexivity.
  - constructor.
  - intros u. split; [intros (n & [])|lia].
  - intros u r [].
  - intros p file u r [].
Qed.

Lemma number_held es s kt km kc u :
  Inv es s kt km kc -> holds es u ->
  exists n km', number u (kern s) = n /\ Permutation km ((n, u) :: km') /\ 0 <= n /\ In (n, u) (kern s).
Proof.
  intros H Hu. apply (i_mine _ _ _ _ _ H) in Hu. apply in_map_iff in Hu as ([n w] & E & I1). cbn in E. subst w.
  assert (I2 : In (n, u) (kern s)) by (rewrite (i_split _ _ _ _ _ H); apply in_or_app; auto).
  exists n. apply in_split in I1 as (a & b & ->). exists (a ++ b). split; [|split; [|split]].
  - apply number_in; auto. eapply NoDup_app_l, (i_ids_nodup _ _ _ _ _ H).
  - symmetry. apply Permutation_middle.
  - eapply i_nonneg; eauto.
  - exact I2.
Qed.

(** What one operation does, on the split of the table. *)
Inductive change (es : list (op * result)) (s : state) : op -> state -> result -> list (Z * nat) -> Prop :=
| ch_other (o : op) (s' : state) (r : result) : r <> Aborted -> (forall ok, r <> Answer ok) -> tree s' = tree s -> closes s' = closes s -> incl (kern s) (kern s') -> change es s o s' r []
| ch_add p (file : bool) who t t' dead s' ok kd :
    tree s = Some t -> tree s' = Some t' ->
    own_handle t p (let fd := match who with Some u => number u (kern s) | None => -1 end in if file then EFile fd else EDirH fd) = Ret (ok, t', dead) ->
    Permutation (map fst kd) (pos dead) -> closes s' = closes s ++ gone kd ->
    Permutation (kern s) (kd ++ kern s') ->
    change es s (Add p file who) s' (Answer ok) kd
| ch_close u n s' : tree s' = tree s -> closes s' = closes s ++ gone [(n, u)] ->
    Permutation (kern s) ((n, u) :: kern s') -> change es s (Close u) s' Done [(n, u)]
| ch_drop t s' kd : tree s = Some t -> tree s' = None -> Permutation (map fst kd) (pos (tree_fds t)) ->
    closes s' = closes s ++ gone kd -> Permutation (kern s) (kd ++ kern s') ->
    change es s Drop s' Done kd.

Lemma held_lt es s kt km kc u : Inv es s kt km kc -> holds es u -> (u < next s)%nat.
Proof. intros H Hu. apply (i_opened _ _ _ _ _ H), Hu. Qed.

Lemma Inv_step debug es s o s' r kt km kc :
  Inv es s kt km kc -> allowed es s o -> step debug o s = (s', r) ->
  exists kt' km' kc' kd, Inv (es ++ [(o, r)]) s' kt' km' kc' /\ change es s o s' r kd.
Proof.
  intros H Al E. destruct o as [n|p file who|u|].
  - (* Open *)
    cbn in E. injection E as <- <-. destruct Al as [Hn Hl]. apply lookup_none in Hl.
    exists kt, (km ++ [(n, next s)]), kc, [].
    split; [|apply ch_other; [discriminate|discriminate|reflexivity|reflexivity|]; apply incl_appl, incl_refl]. constructor; cbn [tree kern next closes].
    + rewrite (i_split _ _ _ _ _ H), app_assoc. reflexivity.
    + rewrite map_app. cbn. eapply Permutation_NoDup; [apply Permutation_cons_append|]. constructor; [auto|apply H].
    + intros m u. rewrite in_snoc. intros [I1|[= <- <-]]; [eapply i_nonneg; eauto|auto].
    + apply H.
    + apply H.
    + apply H.
    + intros u. rewrite map_app, in_app_iff, (i_mine _ _ _ _ _ H). cbn. unfold holds. split.
      * intros [((m & A) & B & C)|[<-|[]]].
        -- split; [exists m; apply in_snoc; auto|]. split; [intros X; apply in_snoc in X as [X|X]; [auto|discriminate]|].
           intros p f X. apply in_snoc in X as [X|X]; [now apply C in X|discriminate].
        -- split; [exists n; apply in_snoc; auto|]. split; [intros X; apply in_snoc in X as [X|X]; [|discriminate]|].
           ++ apply (i_closing _ _ _ _ _ H) in X. lia.
           ++ intros p f X. apply in_snoc in X as [X|X]; [|discriminate]. apply (i_adding _ _ _ _ _ H) in X. lia.
      * intros ((m & A) & B & C). apply in_snoc in A as [A|[= -> ->]]; [|auto]. left. split; [eauto|]. split.
        -- intros X. apply B, in_snoc. auto.
        -- intros p f X. apply (C p f), in_snoc. auto.
    + apply H.
    + rewrite seq_S, <- (i_ids _ _ _ _ _ H), map_app, <- !app_assoc. cbn. apply Permutation_app_head.
      apply Permutation_cons_append.
    + intros u. unfold opened. split.
      * intros (m & A). apply in_snoc in A as [A|[= -> ->]]; [|lia]. enough (u < next s)%nat by lia. apply (i_opened _ _ _ _ _ H). now exists m.
      * intros L. destruct (Nat.eq_dec u (next s)) as [->|D]; [exists n; apply in_snoc; auto|].
        destruct (proj2 (i_opened _ _ _ _ _ H u)) as (m & A); [lia|]. exists m. apply in_snoc. auto.
    + intros u r. rewrite in_snoc. intros [X|X]; [apply (i_closing _ _ _ _ _ H) in X; lia|discriminate].
    + intros p f u r. rewrite in_snoc. intros [X|X]; [apply (i_adding _ _ _ _ _ H) in X; lia|discriminate].
  - (* Add *)
    destruct Al as (At & Al & Aw). cbn [step] in E. destruct (tree s) as [t|] eqn:Et; [|congruence].
    set (fd := match who with Some u => number u (kern s) | None => -1 end) in *.
    set (lf := if file then EFile fd else EDirH fd) in *.
    assert (Same : forall r, r <> Answer true -> s' = s -> exists kt' km' kc', Inv (es ++ [(Add p file who, r)]) s' kt' km' kc').
    { intros r' Hr ->. exists kt, km, kc. constructor; try apply H.
      - intros u. rewrite (i_mine _ _ _ _ _ H). symmetry. apply holds_same; congruence.
      - intros u. rewrite <- (i_opened _ _ _ _ _ H). unfold opened. split; intros (n & A); exists n; [|apply in_snoc; auto].
        apply in_snoc in A as [A|A]; [auto|discriminate].
      - intros u r1. rewrite in_snoc. intros [X|X]; [now apply (i_closing _ _ _ _ _ H) in X|discriminate].
      - intros p1 f1 u r1. rewrite in_snoc. intros [X|X]; [now apply (i_adding _ _ _ _ _ H) in X|].
        injection X as -> -> -> ->. eapply held_lt; eauto. }
    destruct (own_handle t p lf) as [[[ok t'] dead]| | | |] eqn:O;
      try (injection E as <- <-; destruct (Same Threw) as (a & b & c & I1); [discriminate|reflexivity|];
           exists a, b, c, []; split; [exact I1|]; apply ch_other; [discriminate|discriminate|auto|auto|]; apply incl_refl).
    pose proof (own_handle_fds _ _ _ _ _ _ O) as F. apply pos_perm in F. rewrite !pos_app in F.
    pose proof (i_tree _ _ _ _ _ H) as T. rewrite Et in T. cbn [fds_of] in T.
    (* the table, with the argument moved to the tree when accepted *)
    assert (M : exists kt1 km1, Permutation (kern s) (kt1 ++ km1) /\ Permutation (map fst kt1) (pos (tree_fds t') ++ pos dead) /\
                (forall u, In u (map snd km1) <-> holds (es ++ [(Add p file who, Answer ok)]) u)).
    { destruct ok; [destruct who as [u|]|].
      - destruct (number_held _ _ _ _ _ u H (Aw u eq_refl)) as (n & km' & En & Pm & Hn & In1).
        assert (Efd : fd = n) by exact En.
        exists ((n, u) :: kt), km'. split; [|split].
        + rewrite (i_split _ _ _ _ _ H), Pm. symmetry. apply Permutation_middle.
        + rewrite F. assert (L : pos (entry_fds lf) = [n]) by (unfold lf; rewrite Efd; destruct file; cbn; (destruct (Z.leb_spec 0 n); [reflexivity|lia])).
          rewrite L. cbn. now rewrite T.
        + intros w. rewrite holds_add, <- (i_mine _ _ _ _ _ H w), Pm. cbn.
          assert (N : ~ In u (map snd km')).
          { pose proof (NoDup_app_l _ _ (i_ids_nodup _ _ _ _ _ H)) as N.
            assert (Pk : Permutation (kern s) ((n, u) :: km' ++ kt)).
            { rewrite (i_split _ _ _ _ _ H), Pm. rewrite (Permutation_app_comm kt). reflexivity. }
            eapply Permutation_NoDup in N; [|exact (Permutation_map snd Pk)]. cbn in N. inversion N as [|? ? X Y]; subst.
            rewrite map_app, in_app_iff in X. tauto. }
          split; [|intros [[X|X] D9]; [congruence|auto]]. intros I1. split; [auto|]. intros ->. auto.
      - exists kt, km. split; [apply H|]. split; [|intros w; rewrite (i_mine _ _ _ _ _ H); symmetry; apply holds_same; congruence].
        rewrite F. assert (L : pos (entry_fds lf) = []) by (subst lf fd; destruct file; reflexivity). rewrite L. cbn. exact T.
      - exists kt, km. split; [apply H|]. split; [|intros w; rewrite (i_mine _ _ _ _ _ H); symmetry; apply holds_same; congruence].
        rewrite F. cbn. exact T. }
    destruct M as (kt1 & km1 & Pk & Pt & Hm). apply split_map in Pt as (kt2 & kd & Pt & Et2 & Ed).
    destruct (Inv_destroy debug es s kt km kc dead kd kt2 km1 H) as (k & kd' & D & D1 & D2 & D3 & D4 & D5).
    { rewrite Pk, Pt. rewrite (Permutation_app_comm kt2), app_assoc. reflexivity. }
    { rewrite Ed. reflexivity. }
    rewrite D in E. injection E as <- <-. exists kt2, km1, (kc ++ kd'), kd'. split.
    + constructor; cbn [tree kern next closes fds_of]; auto.
      * rewrite Et2. reflexivity.
      * intros n I1 Neg. assert (I2 : In n (tree_fds t' ++ dead)) by (apply in_or_app; auto).
        rewrite (own_handle_fds _ _ _ _ _ _ O) in I2. apply in_app_or in I2 as [I2|I2].
        -- assert (n = fd) by (destruct ok; [|destruct I2]; unfold lf in I2; destruct file; destruct I2 as [I2|[]]; congruence). subst n.
           destruct who as [u|]; [|reflexivity]. destruct (number_held _ _ _ _ _ u H (Aw u eq_refl)) as (m & km' & En & _ & Hn & _). subst fd. lia.
        -- apply (i_neg _ _ _ _ _ H); auto. rewrite Et. exact I2.
      * intros t0 [= <-]. eapply own_loop_wf; [exact O|apply (i_wf _ _ _ _ _ H _ Et)|]. subst lf. destruct file; constructor.
      * intros u. rewrite <- (i_opened _ _ _ _ _ H). unfold opened. split; intros (n & A); exists n; [|apply in_snoc; auto].
        apply in_snoc in A as [A|A]; [auto|discriminate].
      * intros u r1. rewrite in_snoc. intros [X|X]; [now apply (i_closing _ _ _ _ _ H) in X|discriminate].
      * intros p1 f1 u r1. rewrite in_snoc. intros [X|X]; [now apply (i_adding _ _ _ _ _ H) in X|].
        injection X as _ _ X _. eapply held_lt; [exact H|]. exact (Aw u X).
    + eapply ch_add; cbn [tree kern closes]; eauto.
      * rewrite D2, Ed. reflexivity.
      * rewrite (i_closed _ _ _ _ _ H), gone_app. reflexivity.
      * rewrite Pk, Pt, D1, D2. rewrite (Permutation_app_comm kt2), app_assoc. reflexivity.
  - (* Close *)
    cbn in Al. destruct (number_held _ _ _ _ _ u H Al) as (n & km' & En & Pm & Hn & In1).
    destruct (Inv_destroy debug es s kt km kc [n] [(n, u)] kt km' H) as (k & kd' & D & D1 & D2 & D3 & D4 & D5).
    { rewrite (i_split _ _ _ _ _ H), Pm. symmetry. exact (Permutation_middle kt km' (n, u)). }
    { cbn. destruct (Z.leb_spec 0 n); [reflexivity|lia]. }
    apply Permutation_sym, Permutation_length_1_inv in D2. subst kd'.
    unfold step in E. rewrite En, D in E. injection E as <- <-.
    exists kt, km', (kc ++ [(n, u)]), [(n, u)]. split.
    + constructor; cbn [tree kern next closes]; auto; try apply H.
      * intros w. rewrite holds_close, <- (i_mine _ _ _ _ _ H w), Pm. cbn.
        assert (N : ~ In u (map snd km')).
        { pose proof (NoDup_app_l _ _ (i_ids_nodup _ _ _ _ _ H)) as N.
          assert (Pk : Permutation (kern s) ((n, u) :: km' ++ kt)).
          { rewrite (i_split _ _ _ _ _ H), Pm. rewrite (Permutation_app_comm kt). reflexivity. }
          eapply Permutation_NoDup in N; [|exact (Permutation_map snd Pk)]. cbn in N. inversion N as [|? ? X Y]; subst.
          rewrite map_app, in_app_iff in X. tauto. }
        split; [|intros [[X|X] D9]; [congruence|auto]]. intros I1. split; [auto|]. intros ->. auto.
      * intros w. rewrite <- (i_opened _ _ _ _ _ H). unfold opened. split; intros (m & A); exists m; [|apply in_snoc; auto].
        apply in_snoc in A as [A|A]; [auto|discriminate].
      * intros w r1. rewrite in_snoc. intros [X|X]; [now apply (i_closing _ _ _ _ _ H) in X|].
        injection X as X _. subst w. eapply held_lt; eauto.
      * intros p1 f1 w r1. rewrite in_snoc. intros [X|X]; [now apply (i_adding _ _ _ _ _ H) in X|discriminate].
    + apply ch_close; cbn [tree kern closes]; auto.
      * rewrite (i_closed _ _ _ _ _ H), gone_app. reflexivity.
      * rewrite (i_split _ _ _ _ _ H), Pm, D1. symmetry. exact (Permutation_middle kt km' (n, u)).
  - (* Drop *)
    cbn [step allowed] in Al, E. destruct (tree s) as [t|] eqn:Et; [|congruence].
    pose proof (i_tree _ _ _ _ _ H) as T. rewrite Et in T. cbn [fds_of] in T.
    destruct (Inv_destroy debug es s kt km kc (tree_fds t) kt [] km H) as (k & kd' & D & D1 & D2 & D3 & D4 & D5); [apply H|exact T|].
    rewrite D in E. injection E as <- <-. exists [], km, (kc ++ kd'), kd'. split.
    + constructor; cbn [tree kern next closes fds_of]; auto.
      * intros n [].
      * discriminate.
      * intros u. rewrite (i_mine _ _ _ _ _ H). symmetry. apply holds_same; congruence.
      * intros w. rewrite <- (i_opened _ _ _ _ _ H). unfold opened. split; intros (m & A); exists m; [|apply in_snoc; auto].
        apply in_snoc in A as [A|A]; [auto|discriminate].
      * intros w r1. rewrite in_snoc. intros [X|X]; [now apply (i_closing _ _ _ _ _ H) in X|discriminate].
      * intros p1 f1 w r1. rewrite in_snoc. intros [X|X]; [now apply (i_adding _ _ _ _ _ H) in X|discriminate].
    + eapply ch_drop; cbn [tree kern closes]; eauto.
      * rewrite D2. exact T.
      * rewrite (i_closed _ _ _ _ _ H), gone_app. reflexivity.
      * rewrite (i_split _ _ _ _ _ H), D2, D1. reflexivity.
Qed.

Lemma runs_Inv debug es s : runs debug es s -> exists kt km kc, Inv es s kt km kc.
Proof.
  induction 1 as [|es s o s' r R (kt & km & kc & I1) Al E]; [exists [], [], []; apply Inv_init|].
  destruct (Inv_step _ _ _ _ _ _ _ _ _ I1 Al E) as (a & b & c & d & I2 & _). eauto.
Qed.

(** ** Consequences *)
Lemma nodup_snd (k : list (Z * nat)) n u n' : NoDup (map snd k) -> In (n, u) k -> In (n', u) k -> n = n'.
Proof. intros N A B. rewrite <- (number_in u k n N A). apply number_in; auto. Qed.
Lemma nodup_fst (k : list (Z * nat)) n u u' : NoDup (map fst k) -> In (n, u) k -> In (n, u') k -> u = u'.
Proof. intros N A B. apply (lookup_in n k u N) in A. apply (lookup_in n k u' N) in B. congruence. Qed.

Lemma found_iff es s kt km kc u : Inv es s kt km kc -> (found s u <-> In u (map snd kt)).
Proof.
  intros H. unfold found. split.
  - intros (t & p & n & tail & Et & L & K). apply (lookup_in _ _ _ (i_num _ _ _ _ _ H)) in K.
    assert (I1 : In n (pos (fds_of (tree s)))).
    { apply in_pos. split; [|eapply i_nonneg; eauto]. rewrite Et. apply (found_tree t n (i_wf _ _ _ _ _ H _ Et)). eauto. }
    rewrite <- (i_tree _ _ _ _ _ H) in I1. apply in_map_iff in I1 as ([n' u'] & E & I1). cbn in E. subst n'.
    assert (u' = u); [|subst; apply in_map_iff; exists (n, u); auto].
    eapply nodup_fst; [apply (i_num _ _ _ _ _ H)| |exact K]. rewrite (i_split _ _ _ _ _ H). apply in_or_app. auto.
  - intros I1. apply in_map_iff in I1 as ([n u'] & E & I1). cbn in E. subst u'.
    assert (I2 : In n (pos (fds_of (tree s)))) by (rewrite <- (i_tree _ _ _ _ _ H); apply in_map_iff; exists (n, u); auto).
    apply in_pos in I2 as [I2 _]. destruct (tree s) as [t|] eqn:Et; [|destruct I2].
    apply (found_tree t n (i_wf _ _ _ _ _ H _ Et)) in I2 as (p & tail & L). exists t, p, n, tail. repeat split; auto.
    apply lookup_in; [apply H|]. rewrite (i_split _ _ _ _ _ H). apply in_or_app. auto.
Qed.

Lemma times_closed_gone s kc u : closes s = gone kc -> times_closed s u = count_occ Nat.eq_dec (map snd kc) u.
Proof.
  unfold times_closed. intros ->. induction kc as [|[n w] kc IH]; [reflexivity|]. cbn [gone map filter fst snd count_occ].
  fold (gone kc). destruct (Nat.eqb_spec w u); destruct (Nat.eq_dec w u); try contradiction; cbn [length]; now rewrite IH.
Qed.

Lemma one_place es s kt km kc u : Inv es s kt km kc -> opened es u ->
  (times_closed s u = 1%nat /\ ~ holds es u /\ ~ found s u) \/
  (times_closed s u = 0%nat /\ holds es u /\ ~ found s u) \/
  (times_closed s u = 0%nat /\ ~ holds es u /\ found s u).
Proof.
  intros H O. apply (i_opened _ _ _ _ _ H) in O.
  rewrite (times_closed_gone _ _ u (i_closed _ _ _ _ _ H)), (found_iff _ _ _ _ _ u H), <- (i_mine _ _ _ _ _ H u).
  assert (C : count_occ Nat.eq_dec (map snd kt ++ map snd km ++ map snd kc) u = 1%nat).
  { rewrite <- (proj1 (NoDup_count_occ' Nat.eq_dec (seq 0 (next s))) (seq_NoDup _ _) u) by (apply in_seq; lia).
    apply Permutation_count_occ. rewrite <- (i_ids _ _ _ _ _ H), (i_split _ _ _ _ _ H), map_app, app_assoc. reflexivity. }
  rewrite !count_occ_app in C. rewrite !(count_occ_In Nat.eq_dec). lia.
Qed.

Lemma own_loop_fresh fuel p it fin lf ok d' dead : own_loop fuel p it fin [] lf = Ret (ok, d', dead) -> ok = true.
Proof.
  revert it d' dead. induction fuel as [|fuel IH]; intros it d' dead E; [discriminate|]. cbn [own_loop] in E.
  destruct (it <? fin).
  - destruct (substr _ _ _) as [c| | | |]; try discriminate. cbn [obind get_dir dfind] in E.
    destruct (own_loop fuel p _ fin [] lf) as [[[ok' s] dd]| | | |] eqn:L; try discriminate.
    cbn in E. injection E as <- _ _. eapply IH; eauto.
  - destruct (substr _ _ _); try discriminate. cbn in E. now injection E as <- _ _.
Qed.
Lemma own_loop_refused fuel p it fin d lf d' dead : own_loop fuel p it fin d lf = Ret (false, d', dead) -> d' = d /\ dead = [].
Proof.
  revert it d d' dead. induction fuel as [|fuel IH]; intros it d d' dead E; [discriminate|]. cbn [own_loop] in E.
  destruct (it <? fin).
  - destruct (substr _ _ _) as [c| | | |]; try discriminate. cbn [obind] in E.
    destruct (get_dir d c) as [|fd|sub] eqn:G.
    + destruct (own_loop fuel p _ fin [] lf) as [[[ok' s] dd]| | | |] eqn:L; try discriminate.
      cbn in E. injection E as -> _ _. apply own_loop_fresh in L. discriminate.
    + now injection E as <- <-.
    + destruct (own_loop fuel p _ fin sub lf) as [[[ok' s] dd]| | | |] eqn:L; try discriminate.
      cbn in E. injection E as -> <- <-. apply IH in L as [-> ->]. split; [|reflexivity]. apply dset_same.
      unfold get_dir in G. destruct (dfind d c) as [[x|x|x]|] eqn:F; try discriminate. now injection G as ->.
  - destruct (substr _ _ _) as [c| | | |]; try discriminate.
Qed.
Lemma dset_has d c e x : In x (entry_fds e) -> In x (tree_fds (dset d c e)).
Proof.
  intros I1. induction d as [|[n e0] d IH]; cbn [dset]; [|destruct (text_eq_dec n c)]; rewrite tree_fds_cons; apply in_or_app; auto.
Qed.
Lemma own_loop_has fuel p it fin d lf d' dead x :
  own_loop fuel p it fin d lf = Ret (true, d', dead) -> In x (entry_fds lf) -> In x (tree_fds d').
Proof.
  intros E I1. revert it d d' dead E. induction fuel as [|fuel IH]; intros it d d' dead E; [discriminate|]. cbn [own_loop] in E.
  destruct (it <? fin).
  - destruct (substr _ _ _) as [c| | | |]; try discriminate. cbn [obind] in E.
    destruct (get_dir d c) as [|fd|sub] eqn:G; [| |].
    + destruct (own_loop fuel p _ fin [] lf) as [[[ok' s] dd]| | | |] eqn:L; try discriminate.
      cbn in E. injection E as -> <- _. apply dset_has. exact (IH _ _ _ _ L).
    + discriminate.
    + destruct (own_loop fuel p _ fin sub lf) as [[[ok' s] dd]| | | |] eqn:L; try discriminate.
      cbn in E. injection E as -> <- _. apply dset_has. exact (IH _ _ _ _ L).
  - destruct (substr _ _ _) as [c| | | |]; try discriminate. cbn in E. injection E as <- _. now apply dset_has.
Qed.

Lemma opened_snoc es o r u : opened es u -> opened (es ++ [(o, r)]) u.
Proof. intros (n & A). exists n. apply in_snoc. auto. Qed.

(** What is closed by an operation on the tree was found before and is not any
    more, and conversely. *)
Lemma gone_hidden es s kt km kc o s' r kt' km' kc' kd u :
  Inv es s kt km kc -> Inv (es ++ [(o, r)]) s' kt' km' kc' ->
  Permutation (kern s) (kd ++ kern s') -> closes s' = closes s ++ gone kd ->
  (forall w, holds (es ++ [(o, r)]) w -> holds es w) ->
  (forall w, holds es w -> ~ holds (es ++ [(o, r)]) w -> found s' w) ->
  (In u (map snd kd) <-> found s u /\ ~ found s' u).
Proof.
  intros H H' P C M1 M2.
  assert (T : times_closed s' u = (times_closed s u + count_occ Nat.eq_dec (map snd kd) u)%nat).
  { rewrite (times_closed_gone s (kc) u (i_closed _ _ _ _ _ H)).
    rewrite (times_closed_gone s' (kc ++ kd) u); [|rewrite C, (i_closed _ _ _ _ _ H), gone_app; reflexivity].
    now rewrite map_app, count_occ_app. }
  assert (O : In u (map snd kd) \/ found s u -> opened es u).
  { intros X. apply (i_opened _ _ _ _ _ H).
    assert (I1 : In u (map snd (kern s) ++ map snd kc)).
    { apply in_or_app. left. destruct X as [X|X].
      - rewrite P, map_app. apply in_or_app. auto.
      - apply (found_iff _ _ _ _ _ u H) in X. rewrite (i_split _ _ _ _ _ H), map_app. apply in_or_app. auto. }
    rewrite (i_ids _ _ _ _ _ H) in I1. apply in_seq in I1. lia. }
  split.
  - intros I1. pose proof (O (or_introl I1)) as Ou. pose proof (opened_snoc es o r u Ou) as Ou'.
    pose proof (one_place _ _ _ _ _ u H Ou) as A. pose proof (one_place _ _ _ _ _ u H' Ou') as B.
    apply (count_occ_In Nat.eq_dec) in I1.
    destruct B as [(B1 & B2 & B3)|[(B1 & B2 & B3)|(B1 & B2 & B3)]]; try lia.
    destruct A as [(A1 & A2 & A3)|[(A1 & A2 & A3)|(A1 & A2 & A3)]]; try lia; [|auto].
    exfalso. apply B3. apply M2; auto.
  - intros [F N]. pose proof (O (or_intror F)) as Ou. pose proof (opened_snoc es o r u Ou) as Ou'.
    pose proof (one_place _ _ _ _ _ u H Ou) as A. pose proof (one_place _ _ _ _ _ u H' Ou') as B.
    apply (count_occ_In Nat.eq_dec).
    destruct A as [(A1 & A2 & A3)|[(A1 & A2 & A3)|(A1 & A2 & A3)]]; try contradiction.
    destruct B as [(B1 & B2 & B3)|[(B1 & B2 & B3)|(B1 & B2 & B3)]]; try contradiction; [lia|].
    exfalso. apply A2. auto.
Qed.

(** ** The exports by identity *)
Definition sf (k : list (Z * nat)) (n w : Z) : Prop := n = -1 /\ w = -1 \/ exists u, w = Z.of_nat u /\ In (n, u) k.
Definition nrel (k : list (Z * nat)) (a b : node) : Prop :=
  match a, b with
  | Absent, Absent => True
  | Virtual, Virtual => True
  | AFile n, AFile w => sf k n w
  | ADir n, ADir w => sf k n w
  | _, _ => False
  end.
Lemma nrel_keep es s kt km kc k t q b :
  Inv es s kt km kc -> tree s = Some t -> NoDup (map fst k) -> (forall n u, In (n, u) k -> 0 <= n) -> incl (kern s) k ->
  nrel k (node_at t q) b -> nrel (kern s) (node_at t q) b.
Proof.
  intros H Et N Nn Inc R.
  assert (K : forall n w, In n (node_fd (node_at t q)) -> sf k n w -> sf (kern s) n w).
  { intros n w I1 [E|(u & -> & I2)]; [left; auto|]. right. exists u. split; [reflexivity|].
    assert (T : In n (pos (fds_of (tree s)))).
    { apply in_pos. split; [|eauto]. rewrite Et. apply (visible_tree t n (i_wf _ _ _ _ _ H _ Et)). eauto. }
    rewrite <- (i_tree _ _ _ _ _ H) in T. apply in_map_iff in T as ([n' u'] & E & I3). cbn in E. subst n'.
    assert (I4 : In (n, u') (kern s)) by (rewrite (i_split _ _ _ _ _ H); apply in_or_app; auto).
    rewrite (nodup_fst k n u u' N I2 (Inc _ I4)). exact I4. }
  destruct (node_at t q), b; cbn in *; auto.
Qed.
Lemma nrel_mono k k' a b : incl k k' -> nrel k a b -> nrel k' a b.
Proof.
  intros Inc. assert (K : forall n w, sf k n w -> sf k' n w) by (intros n w [E|(u & E & I1)]; [left|right]; eauto).
  destruct a, b; cbn; auto.
Qed.

Lemma nrel_below k (d v : view) q : (forall p, nrel k (d p) (v p)) -> (below_exported_dir d q <-> below_exported_dir v q).
Proof.
  intros R. split; intros (r & fd & S & E); specialize (R r); rewrite E in R.
  - destruct (v r) eqn:V; try contradiction. now exists r, fd0.
  - destruct (d r) eqn:V; try contradiction. now exists r, fd0.
Qed.

Lemma asked_view debug es h : asked es h -> forall s, runs debug es s ->
  exists t v, tree s = Some t /\ history h v /\ forall q, nrel (kern s) (node_at t q) (v q).
Proof.
  induction 1 as [|es h q file who ok A IH G|es h n r A IH|es h u r A IH]; intros s R.
  - inversion R as [E|es' s0 o s' r R' Al St E]; [|apply app_eq_nil in E as [_ E]; discriminate].
    exists [], empty_view. split; [reflexivity|]. split; [constructor|]. intros q. rewrite node_at_nil. destruct q; exact Logic.I.
  - inversion R as [E|es' s0 o s' r R' Al St E]; [symmetry in E; apply app_eq_nil in E as [_ E]; discriminate|].
    apply app_inj_tail in E as [-> [= -> ->]].
    destruct (IH s0 R') as (t & v & Et & Hh & Rv). destruct (runs_Inv _ _ _ R') as (kt & km & kc & I1).
    destruct (Inv_step _ _ _ _ _ _ _ _ _ I1 Al St) as (kt' & km' & kc' & kd & I2 & Ch).
    destruct Al as (_ & Al & Aw).
    inversion Ch as [? ? ? Nab Nan Et' Ec' Ik Eo|? ? ? t0 t' dead ? ? ? Et0 Et' O F C P| |]; subst.
    { now destruct (Nan ok). }
    rewrite Et in Et0. injection Et0 as <-.
    set (n := match who with Some u => number u (kern s0) | None => -1 end) in *.
    set (l := if file then LeafFile n else LeafDir n).
    assert (Al2 : add_call t (raw_path q, l) = Ret (ok, t')).
    { unfold add_call, l, add_file, add_directory. cbn zeta in O. destruct file; cbn [fst snd]; rewrite own_handle_is, O; reflexivity. }
    assert (Sn : sf (kern s0) n (match who with Some u => Z.of_nat u | None => -1 end)).
    { destruct who as [u|]; [|left; auto]. right. exists u. split; [reflexivity|].
      destruct (number_held _ _ _ _ _ u I1 (Aw u eq_refl)) as (m & km1 & En & _ & _ & Im). unfold n. now rewrite En. }
    assert (Inc : incl (kern s) (kern s0)) by (intros x Ix; rewrite P; apply in_or_app; auto).
    exists t'. destruct (add_call_cases t q l G Al) as [[B E]|[B (d' & E)]]; rewrite E in Al2; injection Al2 as <- <-.
    + exists v. split; [auto|]. split.
      * apply H_refuse; auto. apply (nrel_below _ _ _ q Rv), B.
      * intros p. eapply nrel_keep; eauto; apply I1.
    + exists (exported v q (node_of_leaf (export file who))). split; [auto|]. split.
      * apply H_accept; auto. rewrite <- (nrel_below _ _ _ q Rv). exact B.
      * intros p. eapply nrel_keep; [exact I2|exact Et'|apply I1|apply I1|exact Inc|].
        destruct (add_handle_effect t q l d' G Al E) as [_ Ef]. rewrite Ef. unfold exported.
        destruct (names_eq_dec p q); [|destruct (strict_prefix p q); [exact Logic.I|destruct (strict_prefix q p); [exact Logic.I|apply Rv]]].
        unfold l, export. destruct file; exact Sn.
  - inversion R as [E|es' s0 o s' r' R' Al St E]; [symmetry in E; apply app_eq_nil in E as [_ E]; discriminate|].
    apply app_inj_tail in E as [-> [= -> ->]]. destruct (IH s0 R') as (t & v & Et & Hh & Rv).
    cbn in St. injection St as <- <-. exists t, v. cbn [tree kern]. repeat split; auto.
    intros q. eapply nrel_mono; [|apply Rv]. apply incl_appl, incl_refl.
  - inversion R as [E|es' s0 o s' r' R' Al St E]; [symmetry in E; apply app_eq_nil in E as [_ E]; discriminate|].
    apply app_inj_tail in E as [-> [= -> ->]]. destruct (IH s0 R') as (t & v & Et & Hh & Rv).
    destruct (runs_Inv _ _ _ R') as (kt & km & kc & I1).
    destruct (Inv_step _ _ _ _ _ _ _ _ _ I1 Al St) as (kt' & km' & kc' & kd & I2 & Ch). exists t, v.
    cbn [step] in St. destruct (destroy debug [number u (kern s0)] (kern s0) (closes s0)) as [[k c]|] eqn:D; injection St as <- <-;
      [|repeat split; auto]. cbn [tree kern] in *. repeat split; auto.
    intros q. eapply (nrel_keep _ (St (tree s0) k (next s0) c) _ _ _ (kern s0)); [exact I2|exact Et|apply I1|apply I1| |apply Rv].
    cbn [kern]. inversion Ch as [? ? ? Nab Nan Et' Ec' Ik Eo| |? m ? Et' C P|]; subst.
    + cbn [closes] in Ec'. destruct (number_held _ _ _ _ _ u I1 Al) as (m & km1 & En & _ & Hm & Im).
      exfalso. cbn [destroy] in D. rewrite En in D. destruct (Z.ltb_spec m 0); [lia|].
      apply (lookup_in _ _ _ (i_num _ _ _ _ _ I1)) in Im. rewrite Im in D. injection D as _ <-.
      apply (f_equal (@length _)) in Ec'. rewrite app_length in Ec'. cbn in Ec'. lia.
    + intros x Ix. cbn [kern] in P. rewrite P. right. exact Ix.
Qed.
