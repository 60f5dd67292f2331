(** Claimed theorems about several libraries in one program (C84). *)
From Coq Require Import String Ascii List ZArith Lia Bool Permutation Arith.
From Verif Require Import Base PathModel FileTreeModel FileTreeSpec RegionModel RegionSpec DispatchModel HostCallsModel HostCallsSpec NetProps
  HandleModel OwnModel OwnSpec OwnProof OwnProps GateModel GateSpec GateProof GateProps LibsModel LibsSpec LibsProof.
Import ListNotations.
Local Open Scope Z_scope.

Lemma in_hand_dec es u : opened (program (all es)) u -> in_hand es u \/ ~ in_hand es u.
Proof.
  intros O. unfold in_hand. set (l := program (all es)) in *. clearbody l.
  set (f := fun e : op * OwnModel.result => match e with
    | (Close v, Done) => Nat.eqb v u | (Add _ _ (Some v), Answer true) => Nat.eqb v u | _ => false end).
  destruct (existsb f l) eqn:E.
  - right. intros (_ & B & C). apply existsb_exists in E as ([o r] & I1 & F). cbn in F.
    destruct o as [|p fl [v|]|v|], r as [|[|]| | |]; try discriminate; apply Nat.eqb_eq in F; subst v; [exact (C _ _ I1)|exact (B I1)].
  - left. assert (N : forall x, In x l -> f x = false).
    { intros x I1. destruct (f x) eqn:F; [|reflexivity]. assert (existsb f l = true) by (apply existsb_exists; eauto). congruence. }
    split; [exact O|]. split; [intros X|intros p fl X]; apply N in X; cbn in X; rewrite Nat.eqb_refl in X; discriminate.
Qed.

Lemma in_one_library debug es w u : linv debug es w -> opened (program (all es)) u ->
  (closings w u = 1%nat /\ ~ in_hand es u /\ forall i, ~ exported w i u) \/
  (closings w u = 0%nat /\ in_hand es u /\ forall i, ~ exported w i u) \/
  (closings w u = 0%nat /\ ~ in_hand es u /\ exists i, exported w i u /\ forall j, exported w j u -> j = i).
Proof.
  intros V Op.
  pose proof (v_opened _ _ _ V u Op) as Lt.
  assert (P : forall i, exists ei, (forall v, holds (program (all es)) v -> holds ei v) /\
    ((closings w u = 1%nat /\ ~ holds ei u /\ ~ exported w i u) \/ (closings w u = 0%nat /\ holds ei u /\ ~ exported w i u) \/
     (closings w u = 0%nat /\ ~ holds ei u /\ exported w i u))).
  { intros i. destruct (v_runs _ _ _ V i) as (ei & Ri & Hi). exists ei. split; [exact Hi|]. exact (place debug ei (own (lib w i)) u Ri Lt). }
  destruct (P 0%nat) as (e0 & H0 & [(C & Nh & Nf)|Z]).
  - left. split; [exact C|]. split; [intros X; exact (Nh (H0 u X))|]. intros i. destruct (P i) as (ei & _ & [(_ & _ & X)|[(X & _)|(X & _)]]); [exact X|lia|lia].
  - assert (C : closings w u = 0%nat) by tauto. right. clear Z e0 H0.
    destruct (in_hand_dec es u Op) as [Hh|Nh].
    + left. split; [exact C|]. split; [exact Hh|]. intros i. destruct (P i) as (ei & Hi & [(X & _)|[(_ & _ & X)|(_ & X & _)]]); [lia|exact X|].
      exfalso. exact (X (Hi u Hh)).
    + right. split; [exact C|]. split; [exact Nh|]. destruct (v_some _ _ _ V u Op Nh C) as [i F]. exists i. split; [exact F|].
      intros j Fj. exact (v_apart _ _ _ V j i u Fj F).
Qed.

Lemma request_home debug es w i q evs s' : linv debug es w -> fine_run debug (settings (only i es)) (own (lib w i)) q evs s' ->
  forall before o on new after, evs = before ++ Asked o on new :: after ->
    rightful (own (lib w i)) (settings (only i es)) (received (own (lib w i)) q) (opened_in before) o on /\
    forall u, on = Some u -> ~ in_hand es u /\ forall j, j <> i -> ~ exported w j u.
Proof.
  intros V FR.
  assert (Sp := fun b o on n a => okev_split _ _ _ evs [] b o on n a (fr_events _ _ _ _ _ _ FR)).
  intros before o on new aft S. destruct (Sp _ _ _ _ _ S) as [Ri _]. split; [exact Ri|]. intros u ->.
  assert (New : (fresh w <= u)%nat -> ~ in_hand es u /\ forall j, j <> i -> ~ exported w j u).
  { intros Le. split.
    - intros H. apply proj1 in H. apply (v_opened _ _ _ V) in H. lia.
    - intros j D F. destruct (v_runs _ _ _ V j) as (ej & Rj & _). apply (found_lt _ _ _ _ Rj) in F. change (next (own (lib w j))) with (fresh w) in F. lia. }
  assert (Mine : exported w i u -> ~ in_hand es u /\ forall j, j <> i -> ~ exported w j u).
  { intros F. split.
    - intros H. destruct (v_runs _ _ _ V i) as (ei & Re & Hi). apply Hi in H. 
      destruct (place _ _ _ u Re (found_lt _ _ _ _ Re F)) as [(_ & X & _)|[(_ & _ & X)|(_ & X & _)]]; contradiction.
    - intros j D Fj. apply D. exact (v_apart _ _ _ V j i u Fj F). }
  assert (Opn : In u (opened_in before) -> (fresh w <= u)%nat).
  { intros I1. unfold opened_in in I1. apply in_flat_map in I1 as (e & Ie & I1). destruct e as [o' on' [v|]|? ?|]; try contradiction. destruct I1 as [<-|[]].
    apply in_split in Ie as (b1 & b2 & ->). rewrite <- app_assoc in S. destruct (Sp _ _ _ _ _ S) as [_ X]. exact (proj1 (X v eq_refl)). }
  assert (Got : received (own (lib w i)) q = Some u -> (fresh w <= u)%nat).
  { unfold received. destruct (q_msg q) as [[? [?|]]|]; try discriminate. intros X. injection X as <-. change (next (own (lib w i))) with (fresh w). lia. }
  assert (Fi : forall f, exported_file_is (own (lib w i)) f (Some u) -> exported w i u).
  { intros f (t & p & tail & Et & L & _ & [(_ & X)|(v & X & K)]); [discriminate|]. injection X as <-. exists t, p, f, tail. auto. }
  assert (Di : forall f names, exported_dir_is (own (lib w i)) f (Some u) names -> exported w i u).
  { intros f names (t & p & tail & Et & L & _ & _ & [(_ & X)|(v & X & K)]); [discriminate|]. injection X as <-. exists t, p, f, tail. auto. }
  inversion Ri; subst; eauto.
Qed.

Section HISTORY.
Variables (debug : bool) (shm size hdr : nat -> Z).
Hypothesis M : forall i, mapping_ok (shm i) (size i) (hdr i).
Local Notation heaps := (fun i => library_heap (shm i) (size i) (hdr i)).
Local Notation lruns := (lruns debug heaps).

(** C84: whatever the program and the sandboxes of all its libraries do, each
    descriptor that the program opened is closed, once, or in the program's hands,
    or found in exactly one library. *)
Theorem descriptor_in_one_library es w n u :
  lruns es w -> In (Host (Open n), Did (Opened u)) (all es) ->
  (closings w u = 1%nat /\ ~ in_hand es u /\ forall i, ~ exported w i u) \/
  (closings w u = 0%nat /\ in_hand es u /\ forall i, ~ exported w i u) \/
  (closings w u = 0%nat /\ ~ in_hand es u /\ exists i, exported w i u /\ forall j, exported w j u -> j = i).
Proof.
  intros R O. pose proof (lruns_linv debug shm size hdr M _ _ R) as V.
  assert (Op : opened (program (all es)) u).
  { exists n. unfold program. apply in_flat_map. eexists. split; [exact O|]. left. reflexivity. }
  exact (in_one_library debug es w u V Op).
Qed.

(** C84: no request is left unserved by an assertion, exception or undefined
    behaviour in any library, and no close fails. *)
Theorem libraries_never_break es w : lruns es w ->
  (forall i o, ~ In (i, (o, Broke)) es /\ ~ In (i, (o, Did Aborted)) es) /\ forall n c, In (n, c) (closed w) -> c <> None.
Proof.
  intros R. split.
  - induction R as [|es w i o w' r R IH Al E]; [intros i o; split; intros []|].
    pose proof (lruns_linv debug shm size hdr M _ _ R) as V.
    unfold lstep in E. destruct (gstep debug (heaps i) o (lib w i)) as [g' r'] eqn:G. injection E as <- <-.
    assert (B : r' <> Broke /\ r' <> Did Aborted).
    { destruct o as [o|no p|q]; [|cbn [gstep] in G; split; congruence|destruct (serve_step _ _ _ _ M _ _ _ _ _ _ V Al G) as (_ & evs & -> & _); split; discriminate].
      cbn [gstep] in G. destruct (step debug o (own (lib w i))) as [s' ro] eqn:S. injection G as <- <-. split; [discriminate|]. intros X. injection X as ->.
      destruct (v_runs _ _ _ V i) as (ei & Ri & Hi).
      assert (Ali : allowed ei (own (lib w i)) o).
      { cbn [gallowed] in Al. destruct o as [n|p file who|u|]; cbn [allowed] in *; auto. destruct Al as (A1 & A2 & A3). split; [exact A1|]. split; [exact A2|]. intros u Hu. apply Hi, A3, Hu. }
      apply (proj2 (exported_closes_succeed debug (ei ++ [(o, Aborted)]) s' (runs_snoc _ _ _ _ _ _ Ri Ali S)) o). apply in_snoc. auto. }
    intros i' o'. destruct (IH i' o') as [I1 I2]. split; intros X; apply in_snoc in X as [X|X]; auto; injection X as _ _ X; tauto.
  - pose proof (lruns_linv debug shm size hdr M _ _ R) as V. destruct (v_runs _ _ _ V 0%nat) as (e0 & R0 & _).
    exact (proj1 (exported_closes_succeed debug e0 _ R0)).
Qed.

(** C84: whatever happens to one library (the program's own use of it, its network
    settings, its sandbox's requests), every other library keeps its settings and
    finds the same things at the same paths. *)
Theorem other_libraries_unchanged es w i o w' r j : lruns es w -> gallowed (all es) (lib w i) o -> lstep debug heaps i o w = (w', r) -> j <> i ->
  policies w' j = policies w j /\ (trees w' j = None <-> trees w j = None) /\ forall p tail u, finds w' j p tail u <-> finds w j p tail u.
Proof.
  intros R Al E D. pose proof (lruns_linv debug shm size hdr M _ _ R) as V.
  unfold lstep in E. destruct (gstep debug (heaps i) o (lib w i)) as [g' r'] eqn:G. injection E as <- <-.
  split; [unfold after; cbn [policies]; apply upd_other, D|].
  split; [unfold after; cbn [trees]; rewrite upd_other by exact D; reflexivity|]. intros p tail u.
  destruct o as [o|no np|q].
  - cbn [gstep] in G. destruct (step debug o (own (lib w i))) as [s' ro] eqn:S. injection G as <- <-.
    apply (proj2 (linv_host _ _ _ _ _ _ _ V Al S)). exact D.
  - cbn [gstep] in G. injection G as <- <-. unfold finds, after. cbn [trees table own kern]. rewrite upd_other by exact D. reflexivity.
  - destruct (serve_step _ _ _ _ M _ _ _ _ _ _ V Al G) as (N & evs & -> & FR). apply (linv_serve _ _ _ _ _ _ _ V N FR).
Qed.

(** C84: each operation of a request is rightful as in C82, by the exports and
    settings of the library it came from, and what it is about is neither in the
    program's hands nor exported to another library. *)
Theorem request_stays_in_its_library es w i q w' r :
  lruns es w -> gallowed (all es) (lib w i) (Serve q) -> lstep debug heaps i (Serve q) w = (w', r) ->
  exists evs, r = Served evs /\
  forall before o on new after, evs = before ++ Asked o on new :: after ->
    rightful (own (lib w i)) (settings (only i es)) (received (own (lib w i)) q) (opened_in before) o on /\
    forall u, on = Some u -> ~ in_hand es u /\ forall j, j <> i -> ~ exported w j u.
Proof.
  intros R Al E. pose proof (lruns_linv debug shm size hdr M _ _ R) as V.
  unfold lstep in E. destruct (gstep debug (heaps i) (Serve q) (lib w i)) as [g' r'] eqn:G. injection E as <- <-.
  destruct (serve_step _ _ _ _ M _ _ _ _ _ _ V Al G) as (N & evs & -> & FR). exists evs. split; [reflexivity|].
  exact (request_home debug es w i q evs _ V FR).
Qed.

(** C84: a request also leaves the exports and settings of its own library and the
    program's descriptors as they are. *)
Theorem request_changes_no_export es w i q w' r :
  lruns es w -> gallowed (all es) (lib w i) (Serve q) -> lstep debug heaps i (Serve q) w = (w', r) ->
  (forall j, policies w' j = policies w j) /\ (forall j p tail u, finds w' j p tail u <-> finds w j p tail u) /\
  (forall n u, In (n, u) (table w) -> In (n, u) (table w')) /\
  forall u, in_hand (es ++ [(i, (Serve q, r))]) u <-> in_hand es u.
Proof.
  intros R Al E. pose proof (lruns_linv debug shm size hdr M _ _ R) as V.
  unfold lstep in E. destruct (gstep debug (heaps i) (Serve q) (lib w i)) as [g' r'] eqn:G. injection E as <- <-.
  destruct (serve_step _ _ _ _ M _ _ _ _ _ _ V Al G) as (N & evs & -> & FR). split; [|split; [|split]].
  - intros j. unfold after. cbn [policies]. destruct (Nat.eq_dec j i) as [->|D]; [rewrite upd_same; exact N|apply upd_other, D].
  - apply (linv_serve _ _ _ _ _ _ _ V N FR).
  - intros n u I1. unfold after. cbn [table]. destruct (fr_table _ _ _ _ _ _ FR) as [->|(x & v & -> & _)]; repeat (apply in_or_app; left); exact I1.
  - intros u. unfold in_hand. rewrite prog_serve. reflexivity.
Qed.

(** C84: a request gets exactly one answer, as in C82. *)
Theorem each_request_answered_once es w i q w' evs :
  lruns es w -> gallowed (all es) (lib w i) (Serve q) -> lstep debug heaps i (Serve q) w = (w', Served evs) ->
  match q_msg q with
  | None => evs = []
  | Some _ => if q_sends q
      then exists before i fd after, evs = before ++ Replied i fd :: after /\ answers_in before = [] /\ answers_in after = [] /\
        forall x, fd = Some x -> exists u, x = Some u /\ In u (opened_in before) /\ In (Some u) (closed_in after)
      else answers_in evs = [Killed]
  end.
Proof.
  intros R Al E. pose proof (lruns_linv debug shm size hdr M _ _ R) as V.
  unfold lstep in E. destruct (gstep debug (heaps i) (Serve q) (lib w i)) as [g' r'] eqn:G. injection E as <- ->.
  destruct (serve_step _ _ _ _ M _ _ _ _ _ _ V Al G) as (N & evs' & X & FR). injection X as <-. exact (fr_answer _ _ _ _ _ _ FR).
Qed.
End HISTORY.

(** A history that meets the hypotheses: the program opens two directories and
    exports each at /data, one in each of two libraries; both sandboxes open
    /data/a, and each gets at its own; then the first library goes. *)
Definition second_mem : Z -> ascii := fun a => if (a =? 70438) || (a =? 70462) then ascii_of_nat 1 else demo_mem (a - 65536).
Definition second_request : request :=
  Request (Some (CRequest 0 16 70436, None)) [] true (demo_kernel 4) (fun _ => second_mem) (fun _ => second_mem) (fun _ => second_mem) (fun _ => 0) (fun _ => []) (fun _ => 0).
Definition demo_libs : list (nat * gop) :=
  [(0%nat, Host (Open 3)); (0%nat, Host (Open 4)); (0%nat, Host (Add (tx "/data") false (Some 0%nat))); (1%nat, Host (Add (tx "/data") false (Some 1%nat)));
   (1%nat, Setting NConnect PAllow); (0%nat, Serve (demo_request (CRequest 0 16 4900) (Some 33) [] 3)); (1%nat, Serve second_request); (0%nat, Host Drop)].
Definition two (i : nat) : Z := match i with O => 4096 | _ => 69632 end.
Local Notation demo_heaps := (fun i => library_heap (two i) 4096 64).
Fixpoint run_libs (w : host) (os : list (nat * gop)) : host * history :=
  match os with
  | [] => (w, [])
  | (i, o) :: r => let x := lstep true demo_heaps i o w in let y := run_libs (fst x) r in (fst y, (i, (o, snd x)) :: snd y)
  end.
Example demo_libs_result :
  map (fun e => snd (snd e)) (snd (run_libs new_host demo_libs)) =
    [Did (Opened 0); Did (Opened 1); Did (Answer true); Did (Answer true); Noted;
     Served [Asked (KOpenat2 3 (Some (tx "a")) 0 0 8) (Some 0%nat) (Some 3%nat); Asked (KClose 33) (Some 2%nat) None;
             Replied (-38) (Some (Some 3%nat)); Asked (KClose 100) (Some 3%nat) None];
     Served [Asked (KOpenat2 4 (Some (tx "a")) 0 0 8) (Some 1%nat) (Some 4%nat); Replied (-38) (Some (Some 4%nat)); Asked (KClose 100) (Some 4%nat) None];
     Did Done] /\
  trees (fst (run_libs new_host demo_libs)) 0%nat = None /\ table (fst (run_libs new_host demo_libs)) = [(4, 1%nat)] /\
  finds (fst (run_libs new_host demo_libs)) 1 (mkPath true [tx "data"; tx "a"]) (mkPath false [tx "a"]) 1.
Proof.
  split; [vm_compute; reflexivity|]. split; [vm_compute; reflexivity|]. split; [vm_compute; reflexivity|].
  eexists; eexists; split; [vm_compute; reflexivity|]. split; vm_compute; reflexivity.
Qed.

Example demo_libs_runs : (forall i, mapping_ok (two i) 4096 64) /\
  lruns true demo_heaps (snd (run_libs new_host demo_libs)) (fst (run_libs new_host demo_libs)).
Proof.
  split; [intros [|i]; unfold mapping_ok, two; repeat split; try lia; reflexivity|].
  assert (G : forall os es w, lruns true demo_heaps es w ->
    (forall pre i o post, os = pre ++ (i, o) :: post -> gallowed (all (es ++ snd (run_libs w pre))) (lib (fst (run_libs w pre)) i) o) ->
    lruns true demo_heaps (es ++ snd (run_libs w os)) (fst (run_libs w os))).
  { induction os as [|[i o] os IH]; intros es w R A; cbn [run_libs fst snd]; [rewrite app_nil_r; exact R|].
    pose proof (A [] i o os eq_refl) as A0. cbn [run_libs fst snd] in A0. rewrite app_nil_r in A0.
    pose proof (lruns_snoc _ _ _ _ _ _ _ _ R A0 (surjective_pairing (lstep true demo_heaps i o w))) as R1.
    specialize (IH _ _ R1). rewrite <- app_assoc in IH. apply IH. intros pre i' o' post E.
    pose proof (A ((i, o) :: pre) i' o' post) as A1. cbn [run_libs fst snd] in A1. rewrite <- app_assoc. apply A1. rewrite E. reflexivity. }
  apply (G demo_libs [] new_host); [constructor|]. cbn [app].
  intros pre i o post E. unfold demo_libs in E.
  destruct pre as [|? pre]; cbn [app] in E.
  { injection E as <- <- _. cbn. split; [lia|reflexivity]. }
  injection E as <- E.
  destruct pre as [|? pre]; cbn [app] in E.
  { injection E as <- <- _. cbn. split; [lia|reflexivity]. }
  injection E as <- E.
  destruct pre as [|? pre]; cbn [app] in E.
  { injection E as <- <- _. split; [discriminate|]. split; [reflexivity|]. intros u [= <-]. apply holdsb_ok. vm_compute. reflexivity. }
  injection E as <- E.
  destruct pre as [|? pre]; cbn [app] in E.
  { injection E as <- <- _. split; [discriminate|]. split; [reflexivity|]. intros u [= <-]. apply holdsb_ok. vm_compute. reflexivity. }
  injection E as <- E.
  destruct pre as [|? pre]; cbn [app] in E.
  { injection E as <- <- _. exact Logic.I. }
  injection E as <- E.
  destruct pre as [|? pre]; cbn [app] in E.
  { injection E as <- <- _. split; [vm_compute; discriminate|]. split; [intros rq fd [= <- <-]; repeat split; solve [discriminate | reflexivity]|]. split; [repeat constructor; cbn; tauto|].
    split; [intros n [<-|[]]; split; [lia|vm_compute; reflexivity]|].
    apply demo_fair; [left; vm_compute; reflexivity|]. vm_compute. intros x [<-|[<-|[<-|[]]]]; reflexivity. }
  injection E as <- E.
  destruct pre as [|? pre]; cbn [app] in E.
  { injection E as <- <- _. split; [vm_compute; discriminate|]. split; [intros rq fd [= <- <-]; repeat split; solve [discriminate | reflexivity]|]. split; [constructor|].
    split; [intros n []|].
    apply demo_fair; [right; left; vm_compute; reflexivity|]. vm_compute. intros x [<-|[<-|[]]]; reflexivity. }
  injection E as <- E.
  destruct pre as [|? pre]; cbn [app] in E.
  { injection E as <- <- _. vm_compute. discriminate. }
  injection E as <- E.
  destruct pre; discriminate.
Qed.
Print Assumptions descriptor_in_one_library.
Print Assumptions libraries_never_break.
Print Assumptions other_libraries_unchanged.
Print Assumptions request_stays_in_its_library.
Print Assumptions request_changes_no_export.
Print Assumptions each_request_answered_once.
