(** Claimed theorems about a host's descriptors and exports over histories that mix
    the program's own actions with requests of the sandbox (C82). *)
From Coq Require Import String Ascii List ZArith Lia Bool Permutation.
From Verif Require Import Base PathModel FileTreeModel FileTreeSpec RegionModel RegionSpec DispatchModel HostCallsModel HostCallsSpec NetProps ChildCallsModel
  EffectsModel HandleModel OwnModel OwnSpec OwnProof OwnProps GateModel GateSpec GateProof.
Import ListNotations.
Local Open Scope Z_scope.

Section HISTORY.
Variables (debug : bool) (shm size hdr : Z).
Hypothesis M : mapping_ok shm size hdr.
Local Notation h := (library_heap shm size hdr).
Local Notation gruns := (gruns debug h).

Lemma program_app a b : program (a ++ b) = program a ++ program b.
Proof. apply flat_map_app. Qed.
Lemma settings_app a b : settings (a ++ b) = settings a ++ settings b.
Proof. apply flat_map_app. Qed.

Lemma tree_open es s t : runs debug es s -> tree s = Some t ->
  forall p f tail, lookup_file t p = Some (f, tail) -> f = -1 \/ exists w, lookup f (kern s) = Some w.
Proof.
  intros R E p f tail L. destruct (runs_Inv _ _ _ R) as (kt & km & kc & I).
  assert (F : In f (tree_fds t)) by (apply found_tree; [eapply i_wf; eauto|eauto]).
  destruct (Z.ltb_spec f 0) as [N|P].
  - left. apply (i_neg _ _ _ _ _ I); [rewrite E; exact F|exact N].
  - right. assert (X : In f (pos (fds_of (tree s)))) by (apply in_pos; rewrite E; auto).
    rewrite <- (i_tree _ _ _ _ _ I) in X. apply in_map_iff in X as ([f' w] & Ef & X). cbn in Ef. subst f'.
    exists w. apply lookup_in; [apply (i_num _ _ _ _ _ I)|]. rewrite (i_split _ _ _ _ _ I). apply in_or_app. auto.
Qed.

Definition ghost (es : list (gop * gresult)) (g : gate) (oes : list (op * OwnModel.result)) : Prop :=
  runs debug oes (own g) /\ net g = policy_after (settings es) /\ (forall x, In x (program es) -> In x oes) /\
  forall x, In x oes -> In x (program es) \/ exists u, ((exists n, x = (Open n, Opened u)) \/ x = (Close u, Done)) /\ ~ opened (program es) u /\ (u < next (own g))%nat.
Lemma ghost_holds es g oes u : ghost es g oes -> opened (program es) u -> opened oes u /\ (holds (program es) u <-> holds oes u).
Proof.
  intros (_ & _ & P1 & P2) O. assert (O' : opened oes u) by (destruct O as [n O]; exists n; auto). split; [exact O'|].
  split; intros (_ & B & C); (split; [assumption|split]).
  - intros X. destruct (P2 _ X) as [Y|(w & D & N & _)]; [auto|]. destruct D as [[n D]|D]; [discriminate|]. injection D as <-. contradiction.
  - intros p f X. destruct (P2 _ X) as [Y|(w & D & N & _)]; [exact (C p f Y)|]. destruct D as [[n D]|D]; discriminate.
  - intros X. auto.
  - intros p f X. exact (C p f (P1 _ X)).
Qed.

(** One request, in a host with such a history. *)
Lemma request_step0 es hist g oes q g' r : runs debug oes (own g) -> net g = policy_after hist -> gallowed es g (Serve q) -> gstep debug h (Serve q) g = (g', r) ->
  net g' = net g /\ exists evs, r = Served evs /\ (q_msg q = None -> own g' = receive q (own g)) /\
    fine_run debug (hist) (own g) q evs (own g').
Proof.
  intros R N (T & Wd & Nd & Ar & Fk) E. destruct (runs_Inv _ _ _ R) as (kt & km & kc & I).
  cbn [gstep] in E. destruct (tree (own g)) as [t|] eqn:Et; [|congruence]. rewrite N in E.
  pose proof (tree_open _ _ _ R Et) as Tr.
  assert (Ks : forall n u, In (n, u) (kern (own g)) -> 0 <= n) by (intros; eapply i_nonneg; eauto).
  destruct (q_msg q) as [[rq sent]|] eqn:Qm.
  - destruct (request_fine debug shm size hdr (hist) (own g) t q M Et Ks Tr) with (rq := rq) (sent := sent) as (x & evs & A & FR); auto.
    { intros rq' fd' Q. rewrite Qm in Q. inversion Q; subst. eauto. }
    rewrite Qm in A. rewrite A in E. injection E as <- <-. split; [rewrite N; reflexivity|]. exists evs. cbn [own]. split; [reflexivity|]. split; [discriminate|exact FR].
  - cbn in E. injection E as <- <-. split; [rewrite N; reflexivity|]. exists []. cbn [own]. split; [reflexivity|]. split; [reflexivity|].
    unfold receive. rewrite Qm.
    destruct (nodup_arr_lost (own g) q Nd Ar) as [N1 N2].
    constructor; auto; try (cbn; tauto).
    + rewrite lost_state. reflexivity.
    + left. rewrite lost_state. reflexivity.
    + constructor.
    + unfold got_of. rewrite Qm. discriminate.
    + rewrite Qm. reflexivity.
    + intros es0 R0. destruct (runs_lost debug (q_lost q) es0 (own g) R0 N1 N2) as (l & F & _ & R1). eauto.
Qed.

Lemma request_step es g oes q g' r : ghost es g oes -> gallowed es g (Serve q) -> gstep debug h (Serve q) g = (g', r) ->
  net g' = net g /\ exists evs, r = Served evs /\ (q_msg q = None -> own g' = receive q (own g)) /\
    fine_run debug (settings es) (own g) q evs (own g').
Proof. intros (R & N & _). exact (request_step0 _ _ _ _ _ _ _ R N). Qed.

Lemma gruns_ghost es g : gruns es g -> exists oes, ghost es g oes.
Proof.
  induction 1 as [|es g o g' r R (oes & G) Al E].
  - exists []. split; [constructor|]. split; [reflexivity|]. split; intros x [].
  - pose proof G as (Ro & N & P1 & P2). destruct (runs_Inv _ _ _ Ro) as (kt & km & kc & I). destruct o as [o|no p|q].
    + cbn [gstep] in E. destruct (step debug o (own g)) as [s' ro] eqn:S. injection E as <- <-. exists (oes ++ [(o, ro)]).
      assert (HH : forall u, holds (program es) u -> holds oes u) by (intros u Hu; apply (ghost_holds _ _ _ u G); [exact (proj1 Hu)|exact Hu]).
      assert (Al' : allowed oes (own g) o).
      { cbn [gallowed] in Al. destruct o as [n|p file who|u|]; cbn [allowed] in *; auto.
        destruct Al as (A1 & A2 & A3). split; [exact A1|]. split; [exact A2|]. intros u Hu. apply HH, A3, Hu. }
      assert (Ro' : runs debug (oes ++ [(o, ro)]) s') by (eapply runs_snoc; eauto).
      destruct (runs_Inv _ _ _ Ro') as (kt' & km' & kc' & I').
      split; [exact Ro'|]. split; [cbn [net]; rewrite N, settings_app; cbn; rewrite app_nil_r; reflexivity|].
      rewrite program_app. cbn [program flat_map app]. fold (program es). split.
      * intros x X. apply in_app_or in X as [X|X]; apply in_or_app; auto.
      * intros x X. apply in_snoc in X as [X| ->]; [|left; apply in_snoc; auto].
        destruct (P2 _ X) as [Y|(u & D & Nu & Lt)]; [left; apply in_snoc; auto|]. right. exists u. split; [exact D|].
        assert (Lt' : (u < next s')%nat).
        { apply (i_opened _ _ _ _ _ I'). apply (i_opened _ _ _ _ _ I) in Lt as [n Lt]. exists n. apply in_snoc. auto. }
        split; [|exact Lt']. intros [n O]. apply in_snoc in O as [O|O]; [apply Nu; exists n; exact O|].
        injection O as -> ->. cbn [step] in S. injection S as _ Eu. lia.
    + cbn [gstep] in E. injection E as <- <-. exists oes. split; [exact Ro|]. split.
      * cbn [net]. rewrite N, settings_app. unfold policy_after. rewrite fold_left_app. reflexivity.
      * rewrite program_app. cbn [program flat_map app]. fold (program es). rewrite app_nil_r. split; [exact P1|exact P2].
    + destruct (request_step _ _ _ _ _ _ G Al E) as (N' & evs & -> & _ & FR).
      destruct (fr_ghost _ _ _ _ _ _ FR _ Ro) as (l & F & Ro'). exists (oes ++ l).
      destruct (runs_Inv _ _ _ Ro') as (kt' & km' & kc' & I').
      split; [exact Ro'|]. split; [rewrite N', N, settings_app; cbn; rewrite app_nil_r; reflexivity|].
      rewrite program_app. cbn [program flat_map app]. fold (program es). rewrite app_nil_r. split.
      * intros x X. apply in_or_app. auto.
      * intros x X. apply in_app_or in X as [X|X].
        -- destruct (P2 _ X) as [Y|(u & D & Nu & Lt)]; [auto|]. right. exists u. split; [exact D|]. split; [exact Nu|].
           apply (i_opened _ _ _ _ _ I'). apply (i_opened _ _ _ _ _ I) in Lt as [n Lt]. exists n. apply in_or_app. auto.
        -- right. rewrite Forall_forall in F.
           assert (No : forall u, (next (own g) <= u)%nat -> ~ opened (program es) u).
           { intros u Le [n O]. apply P1 in O. assert (X1 : (u < next (own g))%nat) by (apply (i_opened _ _ _ _ _ I); exists n; exact O). lia. }
           destruct (F _ X) as [(n & u & -> & Le)|(u & -> & Le)]; exists u; (split; [eauto|]); (split; [auto|]).
           ++ apply (i_opened _ _ _ _ _ I'). exists n. apply in_or_app. auto.
           ++ eapply (i_closing _ _ _ _ _ I'). apply in_or_app. eauto.
Qed.

(** C82: nothing the sandbox asks for, whenever it asks, makes the host lose or
    close what the program opened: it is closed, once, by the program's own doing
    ([holds] and [found] as without requests), or in the program's hands, or
    exported and found. *)
Theorem exports_survive_requests es g n u :
  gruns es g -> In (Open n, Opened u) (program es) ->
  (times_closed (own g) u = 1%nat /\ ~ holds (program es) u /\ ~ found (own g) u) \/
  (times_closed (own g) u = 0%nat /\ holds (program es) u /\ ~ found (own g) u) \/
  (times_closed (own g) u = 0%nat /\ ~ holds (program es) u /\ found (own g) u).
Proof.
  intros R O. destruct (gruns_ghost _ _ R) as (oes & G). assert (Op : opened (program es) u) by (exists n; exact O).
  destruct (ghost_holds _ _ _ u G Op) as [[m Oo] Hh]. rewrite Hh. eapply exported_in_one_place; [exact (proj1 G)|exact Oo].
Qed.

(** C82: no request is left unserved by an assertion, exception or undefined
    behaviour, and no close fails. *)
Theorem history_never_breaks es g : gruns es g ->
  (forall o, ~ In (o, Broke) es /\ ~ In (o, Did Aborted) es) /\ forall n c, In (n, c) (closes (own g)) -> c <> None.
Proof.
  intros R. destruct (gruns_ghost _ _ R) as (oes & G). destruct (exported_closes_succeed _ _ _ (proj1 G)) as [A B].
  split; [|exact A]. clear G A B oes. induction R as [|es g o g' r R IH Al E]; [intros o; split; intros []|].
  destruct (gruns_ghost _ _ R) as (oes & G). intros o'. destruct (IH o') as [I1 I2]. split; intros X; apply in_snoc in X as [X|X]; auto; injection X as -> ->.
  - destruct o' as [o'|no p|q]; cbn [gstep] in E; [destruct (step debug o' (own g)); discriminate|discriminate|].
    destruct (request_step _ _ _ _ _ _ G Al E) as (_ & evs & X & _). discriminate.
  - destruct o' as [o'|no p|q]; [|cbn [gstep] in E; discriminate|destruct (request_step _ _ _ _ _ _ G Al E) as (_ & evs & X & _); discriminate].
    destruct (gruns_ghost _ _ (gruns_snoc _ _ _ _ _ _ _ R Al E)) as (oes' & G').
    assert (X : In (o', Aborted) oes').
    { destruct G' as (_ & _ & P1 & _). apply P1. rewrite program_app. apply in_or_app. right. left. reflexivity. }
    exact (proj2 (exported_closes_succeed _ _ _ (proj1 G')) o' X).
Qed.

(** C82: each operation of a request is about something exported at that time, about
    what came with the request or about what the same request opened, by identity
    and not only by number; network operations need a setting.  What it opens is
    new, and was opened through one of these. *)
Theorem request_only_touches es g q g' r :
  gruns es g -> gallowed es g (Serve q) -> gstep debug h (Serve q) g = (g', r) ->
  exists evs, r = Served evs /\
  forall before o on new after, evs = before ++ Asked o on new :: after ->
    rightful (own g) (settings es) (received (own g) q) (opened_in before) o on /\
    forall u, new = Some u -> (next (own g) <= u)%nat /\ on <> None.
Proof.
  intros R Al E. destruct (gruns_ghost _ _ R) as (oes & G). destruct (request_step _ _ _ _ _ _ G Al E) as (_ & evs & -> & _ & FR).
  exists evs. split; [reflexivity|]. intros before o on new after S. exact (okev_split _ _ _ _ [] _ _ _ _ _ (fr_events _ _ _ _ _ _ FR) S).
Qed.

(** C82: after the request the exports and the descriptor table are what they were,
    except for descriptors that were dropped on arrival and the one that a
    successful openat leaves; what is closed is exactly what came with the request
    and what it opened. *)
Theorem request_leaves_the_table es g q g' evs :
  gruns es g -> gallowed es g (Serve q) -> gstep debug h (Serve q) g = (g', Served evs) ->
  tree (own g') = tree (own g) /\ net g' = net g /\
  (exists lost left, kern (own g') = kern (own g) ++ lost ++ left /\ map fst lost = q_lost q /\
     (left = [] \/ exists r u rq fd, left = [(r, u)] /\ opened_in evs = [u] /\ q_msg q = Some (rq, fd) /\ cr_kind rq = 3 /\
        (q_sends q = true -> In (Replied r None) evs))) /\
  NoDup (closed_in evs) /\
  (forall c, In c (closed_in evs) -> exists u, c = Some u /\ (next (own g) <= u)%nat) /\
  (forall u, received (own g) q = Some u -> In (Some u) (closed_in evs)).
Proof.
  intros R Al E. destruct (gruns_ghost _ _ R) as (oes & G). destruct (request_step _ _ _ _ _ _ G Al E) as (N & evs' & X & _ & FR).
  injection X as <-. destruct FR as [F1 F2 F3 F4 F5 F6 F7 F8].
  split; [exact F2|]. split; [exact N|]. split; [|auto].
  assert (PL : forall ns u, map fst (pairs ns u) = ns) by (induction ns as [|n ns IH]; intros u; cbn; [reflexivity|]; rewrite IH; reflexivity).
  exists (pairs (q_lost q) (next (own g))). destruct F3 as [F3|(r & u & F3 & O & rq & fd & Q & K & S)].
  - exists []. rewrite app_nil_r. split; [exact F3|]. split; [apply PL|left; reflexivity].
  - exists [(r, u)]. rewrite app_assoc. split; [exact F3|]. split; [apply PL|]. right. exists r, u, rq, fd. auto.
Qed.

(** C82: a request gets exactly one answer; a descriptor in it was opened for this
    request, and the host's own copy is closed afterwards. *)
Theorem request_answered_once es g q g' evs :
  gruns es g -> gallowed es g (Serve q) -> gstep debug h (Serve q) g = (g', Served evs) ->
  match q_msg q with
  | None => evs = []
  | Some _ => if q_sends q
      then exists before i fd after, evs = before ++ Replied i fd :: after /\ answers_in before = [] /\ answers_in after = [] /\
        forall x, fd = Some x -> exists u, x = Some u /\ In u (opened_in before) /\ In (Some u) (closed_in after)
      else answers_in evs = [Killed]
  end.
Proof.
  intros R Al E. destruct (gruns_ghost _ _ R) as (oes & G). destruct (request_step _ _ _ _ _ _ G Al E) as (N & evs' & X & _ & FR).
  injection X as <-. exact (fr_answer _ _ _ _ _ _ FR).
Qed.
End HISTORY.

(** A history that meets the hypotheses: the program opens a directory and exports
    it at /data and allows connect; the sandbox opens /data/a, sending a descriptor
    along that is not asked for; it then uses openat on one that it sends, with two
    more that are dropped; the program then ends the exports. *)
Definition demo_kernel (f : Z) : kernel := fun before o =>
  if opens o && (match subject o with Some g => g =? f | None => false end) &&
     negb (existsb (fun c => match c with KClose g => g =? f | _ => false end) before)
  then (100 + Z.of_nat (length before), 0) else (-1, 9).
Definition demo_mem : Z -> ascii := fun a =>
  if (5000 <=? a) && (a <? 5007) then nth (Z.to_nat (a - 5000)) (list_ascii_of_string "/data/a") nul
  else if (a =? 4900) || (a =? 4924) then ascii_of_nat 136 else if (a =? 4901) || (a =? 4925) then ascii_of_nat 19 else nul.
Definition demo_request (rq : crequest) (fd : option Z) (lost : list Z) (f : Z) : request :=
  Request (Some (rq, fd)) lost true (demo_kernel f) (fun _ => demo_mem) (fun _ => demo_mem) (fun _ => demo_mem) (fun _ => 0) (fun _ => []) (fun _ => 0).
Definition demo_gate : list gop :=
  [Host (Open 3); Host (Add (tx "/data") false (Some 0%nat)); Setting NConnect PAllow;
   Serve (demo_request (CRequest 0 16 4900) (Some 33) [] 3);
   Serve (demo_request (CRequest 3 20 4920) (Some 33) [40; 41] 33); Host Drop].
Fixpoint run_gate (g : gate) (os : list gop) : gate * list (gop * gresult) :=
  match os with
  | [] => (g, [])
  | o :: r => let x := gstep true (library_heap 4096 4096 64) o g in let y := run_gate (fst x) r in (fst y, (o, snd x) :: snd y)
  end.
Example demo_gate_result :
  map snd (snd (run_gate new_gate demo_gate)) =
    [Did (Opened 0); Did (Answer true); Noted;
     Served [Asked (KOpenat2 3 (Some (tx "a")) 0 0 8) (Some 0%nat) (Some 2%nat); Asked (KClose 33) (Some 1%nat) None;
             Replied (-38) (Some (Some 2%nat)); Asked (KClose 100) (Some 2%nat) None];
     Served [Asked (KOpenat2 33 (Some (tx "/data/a")) 0 0 8) (Some 5%nat) (Some 6%nat); Asked (KClose 33) (Some 5%nat) None; Replied 100 None];
     Did Done] /\
  own (fst (run_gate new_gate demo_gate)) =
    St None [(40, 3%nat); (41, 4%nat); (100, 6%nat)] 7 [(33, Some 1%nat); (100, Some 2%nat); (33, Some 5%nat); (3, Some 0%nat)].
Proof. vm_compute. split; reflexivity. Qed.

Lemma demo_fair f open : In f open -> (forall x, In x open -> x < 100) -> fair (demo_kernel f) open.
Proof.
  intros F B ops o g Oo S P.
  assert (X : forall ops done l, (forall x, In x l -> x < 100 + Z.of_nat (length done)) ->
    forall x, In x (open_after (demo_kernel f) l done ops) -> x < 100 + Z.of_nat (length (done ++ ops))).
  { clear. induction ops as [|o ops IH]; intros done l H x I; cbn [open_after] in I; [rewrite app_nil_r; auto|].
    replace (done ++ o :: ops) with ((done ++ [o]) ++ ops) by (rewrite <- app_assoc; reflexivity).
    eapply IH; [|exact I]. intros y Y. rewrite app_length, Nat2Z.inj_add. cbn [length].
    assert (D : In y l \/ y = 100 + Z.of_nat (length done)).
    { assert (K : forall o, fst (demo_kernel f done o) = 100 + Z.of_nat (length done) \/ fst (demo_kernel f done o) = -1)
        by (intros o'; unfold demo_kernel; destruct (_ && _ && _); auto).
      destruct o; cbn [opens andb] in Y; auto; try (apply in_remove in Y as [Y _]; auto);
        match type of Y with context [demo_kernel f done ?c] => destruct (K c) as [E|E]; rewrite E in Y end;
        destruct (0 <=? _) eqn:L in Y; auto; try (apply Z.leb_le in L; lia); destruct Y as [Y|Y]; auto. }
    destruct D as [D| ->]; [apply H in D|]; lia. }
  assert (Y : forall ops done l, In f l -> existsb (fun c => match c with KClose g => g =? f | _ => false end) ops = false ->
    In f (open_after (demo_kernel f) l done ops)).
  { clear. induction ops as [|o ops IH]; intros done l I E; cbn [open_after existsb] in *; [exact I|]. apply orb_false_iff in E as [E1 E2].
    apply IH; [|exact E2]. destruct o; try (destruct (opens _ && _); [right|]; exact I).
    apply in_in_remove; [|exact I]. apply Z.eqb_neq in E1. auto. }
  unfold demo_kernel in P at 1. unfold demo_kernel at 1. rewrite Oo, S in *. cbn [andb] in *.
  destruct (Z.eqb_spec g f) as [->|]; cbn [andb] in *; [|cbn in P; lia].
  destruct (existsb _ ops) eqn:E; cbn [negb fst] in *; [lia|]. split.
  - intros I. apply X in I; [cbn [app] in I; lia|]. intros x Hx. apply B in Hx. cbn. lia.
  - apply Y; auto.
Qed.

Example demo_gate_runs : mapping_ok 4096 4096 64 /\
  gruns true (library_heap 4096 4096 64) (snd (run_gate new_gate demo_gate)) (fst (run_gate new_gate demo_gate)).
Proof.
  split; [unfold mapping_ok; repeat split; try lia; reflexivity|].
  assert (G : forall os es g, gruns true (library_heap 4096 4096 64) es g ->
    (forall pre o post, os = pre ++ o :: post -> gallowed (es ++ snd (run_gate g pre)) (fst (run_gate g pre)) o) ->
    gruns true (library_heap 4096 4096 64) (es ++ snd (run_gate g os)) (fst (run_gate g os))).
  { induction os as [|o os IH]; intros es g R A; cbn [run_gate fst snd]; [rewrite app_nil_r; exact R|].
    pose proof (A [] o os eq_refl) as A0. cbn [run_gate fst snd] in A0. rewrite app_nil_r in A0.
    pose proof (gruns_snoc _ _ _ _ _ _ _ R A0 (surjective_pairing (gstep true (library_heap 4096 4096 64) o g))) as R1.
    specialize (IH _ _ R1). rewrite <- app_assoc in IH. apply IH. intros pre o' post E.
    pose proof (A (o :: pre) o' post) as A1. cbn [run_gate fst snd] in A1. rewrite <- app_assoc. apply A1. rewrite E. reflexivity. }
  apply (G demo_gate [] new_gate); [constructor|]. cbn [app].
  intros pre o post E. unfold demo_gate in E.
  destruct pre as [|? pre]; cbn [app] in E.
  { injection E as <- _. cbn. split; [lia|reflexivity]. }
  injection E as <- E.
  destruct pre as [|? pre]; cbn [app] in E.
  { injection E as <- _. split; [discriminate|]. split; [reflexivity|]. intros u [= <-]. apply holdsb_ok. vm_compute. reflexivity. }
  injection E as <- E.
  destruct pre as [|? pre]; cbn [app] in E.
  { injection E as <- _. exact I. }
  injection E as <- E.
  destruct pre as [|? pre]; cbn [app] in E.
  { injection E as <- _. split; [discriminate|]. split; [intros rq fd [= <- <-]; repeat split; solve [discriminate | reflexivity]|]. split; [repeat constructor; cbn; tauto|].
    split; [intros n [<-|[]]; split; [lia|vm_compute; reflexivity]|].
    apply demo_fair; [left; vm_compute; reflexivity|]. vm_compute. intros x [<-|[<-|[]]]; reflexivity. }
  injection E as <- E.
  destruct pre as [|? pre]; cbn [app] in E.
  { injection E as <- _. split; [vm_compute; discriminate|]. split; [intros rq fd [= <- <-]; repeat split; solve [discriminate | reflexivity]|].
    split; [repeat constructor; cbn; intuition lia|].
    split; [intros n [<-|[<-|[<-|[]]]]; split; try lia; vm_compute; reflexivity|].
    apply demo_fair; [apply in_or_app; right; right; right; left; reflexivity|]. vm_compute. intros x [<-|[<-|[<-|[<-|[]]]]]; reflexivity. }
  injection E as <- E.
  destruct pre as [|? pre]; cbn [app] in E.
  { injection E as <- _. vm_compute. discriminate. }
  injection E as <- E.
  destruct pre; discriminate.
Qed.
Print Assumptions exports_survive_requests.
Print Assumptions history_never_breaks.
Print Assumptions request_only_touches.
Print Assumptions request_leaves_the_table.
Print Assumptions request_answered_once.
