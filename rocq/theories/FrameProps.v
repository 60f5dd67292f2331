(** The claimed theorems about the memory accesses of calls (C65). *)
From Coq Require Import List ZArith Bool Lia.
From Verif Require Import FrameModel FrameSpec.
Import ListNotations.
Open Scope Z_scope.

(** *** Traces *)

Lemma stores_trace adv : forall l k m, snd (stores adv k m l) = map (fun '(a, v) => Wr a v) l.
Proof.
  induction l as [|[a v] l IH]; intros k m; [reflexivity|]. cbn [stores map].
  specialize (IH (S k) (setb (adv k m) a v)). destruct (stores _ _ _ l) as [[k' m'] t]. cbn in *. congruence.
Qed.
Lemma loads_trace adv : forall n k m a,
  let '(bs, _, _, t) := loads adv k m a n in
  length bs = n /\ map addr t = span a n /\ (forall x, In x t -> exists y v, x = Rd y v) /\
  bs = map (fun x => match x with Rd _ v => v | Wr _ v => v end) t.
Proof.
  induction n as [|n IH]; intros k m a; cbn [loads]; [repeat split; intros x []|].
  specialize (IH (S k) (adv k m) (a + 1)). destruct (loads _ _ _ _ n) as [[[bs k'] m'] t].
  destruct IH as (A & B & C & D). cbn [length map addr]. repeat split.
  - congruence.
  - unfold span in *. cbn [seq map]. f_equal; [lia|]. rewrite B, <- seq_shift, map_map. apply map_ext. intros. lia.
  - intros x [<-|X]; eauto.
  - cbn. congruence.
Qed.

Lemma at_addr_span : forall bs a x, In x (map fst (at_addr a bs)) <-> a <= x < a + Z.of_nat (length bs).
Proof.
  induction bs as [|b bs IH]; intros a x; cbn [at_addr map In length]; [split; [intros []|lia]|].
  rewrite IH. cbn [fst]. lia.
Qed.

(** *** Memory on the frame *)

Lemma setb_same m a v : setb m a v a = v.
Proof. unfold setb. rewrite Z.eqb_refl. reflexivity. Qed.
Lemma setb_other m a v x : x <> a -> setb m a v x = m x.
Proof. unfold setb. intros. destruct (Z.eqb_spec x a); congruence. Qed.

Lemma put_other : forall l m x, ~ In x (map fst l) -> put_bytes m l x = m x.
Proof.
  unfold put_bytes. induction l as [|[a v] l IH]; intros m x N; [reflexivity|]. cbn [fold_left].
  rewrite IH by (intros I; apply N; right; exact I). apply setb_other. intros ->. apply N. left. reflexivity.
Qed.
Lemma bytes_at_ext : forall n m m' a, (forall x, a <= x < a + Z.of_nat n -> m x = m' x) -> bytes_at m a n = bytes_at m' a n.
Proof.
  induction n as [|n IH]; intros m m' a H; [reflexivity|]. cbn [bytes_at]. f_equal; [apply H; lia|apply IH; intros; apply H; lia].
Qed.
Lemma put_at : forall bs m a, bytes_at (put_bytes m (at_addr a bs)) a (length bs) = bs.
Proof.
  induction bs as [|b bs IH]; intros m a; [reflexivity|]. cbn [at_addr length bytes_at]. f_equal.
  - change (put_bytes m ((a, b) :: at_addr (a + 1) bs)) with (put_bytes (setb m a b) (at_addr (a + 1) bs)).
    rewrite put_other by (rewrite at_addr_span; lia). apply setb_same.
  - change (put_bytes m ((a, b) :: at_addr (a + 1) bs)) with (put_bytes (setb m a b) (at_addr (a + 1) bs)). apply IH.
Qed.
Lemma put_app l1 l2 m : put_bytes m (l1 ++ l2) = put_bytes (put_bytes m l1) l2.
Proof. apply fold_left_app. Qed.

Definition arg_stores (p : Z) (fs : list (Z * nat)) (args : list (list Z)) : list (Z * Z) :=
  flat_map (fun '((off, _), bs) => at_addr (p + off) bs) (combine fs args).

Lemma arg_stores_in p : forall fs args x, Forall2 (fun f bs => length bs = snd f) fs args ->
  In x (map fst (arg_stores p fs args)) -> exists f, In f fs /\ in_field f (x - p).
Proof.
  intros fs args x H. induction H as [|[off n] bs fs args E H IH]; [intros []|].
  unfold arg_stores. cbn [combine flat_map]. rewrite map_app. intros I. apply in_app_or in I as [I|I].
  - exists (off, n). split; [left; reflexivity|]. apply at_addr_span in I. unfold in_field. cbn in *. lia.
  - destruct (IH I) as (f & A & B). eauto using in_cons.
Qed.

(** Every argument is found where it was put. *)
Lemma args_back p : forall fs args m, Forall2 (fun f bs => length bs = snd f) fs args ->
  ForallOrdPairs (fun f g => forall x, in_field f x -> ~ in_field g x) fs ->
  map (fun '(off, n) => bytes_at (put_bytes m (arg_stores p fs args)) (p + off) n) fs = args.
Proof.
  intros fs args m H. revert m. induction H as [|[off n] bs fs args E H IH]; intros m O; [reflexivity|].
  inversion O as [|f l O1 O2]; subst. cbn in E. subst n.
  unfold arg_stores. cbn [combine flat_map map]. rewrite put_app. fold (arg_stores p fs args). f_equal.
  - rewrite (bytes_at_ext _ _ (put_bytes m (at_addr (p + off) bs))); [apply put_at|].
    intros x X. apply put_other. intros I. apply (arg_stores_in p _ _ _ H) in I as (g & G1 & G2).
    rewrite Forall_forall in O1. apply (O1 g G1 (x - p)); [unfold in_field; cbn; lia|exact G2].
  - apply IH, O2.
Qed.

Section HONEST.
Variable adv : nat -> memory -> memory.
Variables p size : Z.
Definition on_frame (m m' : memory) : Prop := forall x, p <= x < p + size -> m x = m' x.
Hypothesis quiet : forall k m, on_frame (adv k m) m.

Lemma on_frame_put l : forall m m', on_frame m m' -> on_frame (put_bytes m l) (put_bytes m' l).
Proof.
  unfold put_bytes. induction l as [|[a v] l IH]; intros m m' H; [exact H|]. cbn [fold_left]. apply IH.
  intros x X. unfold setb. destruct (x =? a); [reflexivity|]. apply H, X.
Qed.
Lemma stores_on_frame : forall l k m m', on_frame m m' -> on_frame (snd (fst (stores adv k m l))) (put_bytes m' l).
Proof.
  induction l as [|[a v] l IH]; intros k m m' H; [exact H|]. cbn [stores].
  assert (X : on_frame (setb (adv k m) a v) (setb m' a v)).
  { intros x X. unfold setb. destruct (x =? a); [reflexivity|]. rewrite (quiet k m x X). apply H, X. }
  specialize (IH (S k) _ _ X). destruct (stores _ _ _ l) as [[k' m1] t]. exact IH.
Qed.
Lemma loads_on_frame : forall n k m m' a, on_frame m m' -> p <= a -> a + Z.of_nat n <= p + size ->
  fst (fst (fst (loads adv k m a n))) = bytes_at m' a n.
Proof.
  induction n as [|n IH]; intros k m m' a H L1 L2; [reflexivity|]. cbn [loads bytes_at].
  assert (X : on_frame (adv k m) m') by (intros x X; rewrite (quiet k m x X); apply H, X).
  specialize (IH (S k) _ m' (a + 1) X). destruct (loads _ _ _ _ n) as [[[bs k'] m1] t]. cbn in *.
  rewrite IH by lia. f_equal. apply X. lia.
Qed.
End HONEST.

(** C65. Whatever the sandbox does to its memory meanwhile, a call stores only into
    its own frame, and then loads each byte of the return value once, and nothing
    else; the result is made of the bytes these loads saw. *)
Theorem call_accesses : forall adv send p L args m, sensible L -> sized L args -> 0 <= l_size L ->
  let '(r, _, t) := call adv send p L args m in
  (forall x, In x (writes t) -> p <= addr x < p + l_size L) /\
  map addr (reads t) = span (p + fst (l_ret L)) (snd (l_ret L)) /\
  (forall x, In x (reads t) -> p <= addr x < p + l_size L) /\
  r = map (fun x => match x with Rd _ v => v | Wr _ v => v end) (reads t) /\
  t = writes t ++ reads t.
Proof.
  intros adv send p L args m [SF SO] SZ SL. unfold call.
  pose proof (stores_trace adv (frame_stores p L args) 0 m) as T1.
  destruct (stores adv 0 m (frame_stores p L args)) as [[k m1] t1]. cbn in T1.
  pose proof (loads_trace adv (snd (l_ret L)) k (send m1) (p + fst (l_ret L))) as T2.
  destruct (loads _ _ _ _ _) as [[[r k'] m3] t2]. destruct T2 as (A & B & C & D).
  assert (W1 : writes t1 = t1 /\ reads t1 = []).
  { subst t1. generalize (frame_stores p L args). induction l as [|[a v] l [IH1 IH2]]; [split; reflexivity|].
    cbn. split; [f_equal; exact IH1|exact IH2]. }
  assert (W2 : writes t2 = [] /\ reads t2 = t2).
  { clear - C. induction t2 as [|x t2 IH]; [split; reflexivity|]. destruct (C x (or_introl eq_refl)) as (y & v & ->).
    destruct IH as [I1 I2]; [intros z Z; apply C; right; exact Z|]. cbn. split; [exact I1|f_equal; exact I2]. }
  unfold writes, reads in *. rewrite !filter_app.
  destruct W1 as [-> ->], W2 as [-> ->]. rewrite app_nil_r. cbn [app].
  assert (RD : forall x, In x t2 -> p <= addr x < p + l_size L).
  { intros x X. apply (in_map addr) in X. rewrite B in X. unfold span in X. apply in_map_iff in X as (j & <- & J). apply in_seq in J.
    specialize (SF (l_ret L) (fst (l_ret L) + Z.of_nat j) (or_introl eq_refl)). unfold in_field in SF. lia. }
  split; [|auto]. intros x X. subst t1. apply in_map_iff in X as ([a v] & <- & X). cbn [addr].
  unfold frame_stores in X. apply in_app_or in X as [X|X].
  - apply (in_map fst) in X. rewrite at_addr_span, repeat_length in X. cbn in X. lia.
  - apply (in_map fst) in X. apply (arg_stores_in p (l_args L) args) in X as (f & F1 & F2); [|exact SZ].
    specialize (SF f _ (or_intror F1) F2). cbn in SF. lia.
Qed.

(** C65. If the sandbox runs the function on the frame and otherwise leaves the
    frame alone while the call lasts - it may do anything elsewhere -, the call
    gives what the function returns for exactly the arguments passed. *)
Theorem call_is_function : forall adv f p L args m, sensible L -> sized L args -> 0 <= l_size L ->
  (forall k m x, p <= x < p + l_size L -> adv k m x = m x) ->
  length (fst (f args)) = snd (l_ret L) ->
  fst (fst (call adv (run_function f p L) p L args m)) = fst (f args).
Proof.
  intros adv f p L args m [SF SO] SZ SL Q RL. unfold call.
  pose proof (stores_on_frame adv p (l_size L) Q (frame_stores p L args) 0 m m (fun _ _ => eq_refl)) as S1.
  destruct (stores adv 0 m (frame_stores p L args)) as [[k m1] t1]. cbn [fst snd] in S1.
  assert (RI : snd (l_ret L) <> 0%nat -> p <= p + fst (l_ret L) /\ p + fst (l_ret L) + Z.of_nat (snd (l_ret L)) <= p + l_size L).
  { intros NZ. pose proof (SF (l_ret L) (fst (l_ret L)) (or_introl eq_refl)) as X1.
    pose proof (SF (l_ret L) (fst (l_ret L) + Z.of_nat (snd (l_ret L)) - 1) (or_introl eq_refl)) as X2. unfold in_field in X1, X2. lia. }
  assert (AR : map (fun '(off, n) => bytes_at m1 (p + off) n) (l_args L) = args).
  { inversion SO as [|g l O1 O2]; subst.
    etransitivity; [|exact (args_back p (l_args L) args (put_bytes m (at_addr p (repeat 0 (Z.to_nat (l_size L))))) SZ O2)].
    apply map_ext_in. intros [off n] I. apply bytes_at_ext.
    intros x X. rewrite <- put_app. apply S1. specialize (SF (off, n) (x - p) (or_intror I)). unfold in_field in SF. cbn in SF. lia. }
  set (m2 := run_function f p L m1).
  assert (R2 : bytes_at m2 (p + fst (l_ret L)) (snd (l_ret L)) = fst (f args)).
  { unfold m2, run_function. rewrite AR. destruct (f args) as [ret args'] eqn:F. cbn [fst] in *. rewrite <- RL. apply put_at. }
  destruct (snd (l_ret L)) as [|n] eqn:N.
  - destruct (fst (f args)); [reflexivity|discriminate].
  - destruct RI as [I1 I2]; [discriminate|].
    pose proof (loads_on_frame adv p (l_size L) Q (S n) k m2 m2 (p + fst (l_ret L)) (fun _ _ => eq_refl) I1 I2) as LD.
    destruct (loads _ _ _ _ _) as [[[r k'] m3] t2]. cbn [fst] in *. rewrite LD. exact R2.
Qed.

(** C65 (limit). Arguments passed by reference: had the function been called in the
    host, the variables passed would now have the values it gave them ([snd (f
    vars)]); after a call into the sandbox they never do, if it changed any. *)
Theorem reference_arguments_updated_refuted : forall adv f p L vars m, snd (f vars) <> vars ->
  snd (call_with_variables adv (run_function f p L) p L vars m) <> snd (f vars).
Proof. intros adv f p L vars m N. unfold call_with_variables. destruct (call _ _ _ _ _ _) as [[r m'] t]. cbn. congruence. Qed.

(** C65. A function that runs in the sandbox writes through its frame only: a result
    of the size of its type and arguments of theirs change no other byte. *)
Theorem function_writes_in_frame : forall f p L m x, sensible L ->
  (forall args, length (fst (f args)) = snd (l_ret L) /\ sized L (snd (f args))) ->
  ~ (p <= x < p + l_size L) -> run_function f p L m x = m x.
Proof.
  intros f p L m x [SF SO] SZ OUT. unfold run_function.
  match goal with |- context [f ?a] => destruct (SZ a) as [R A]; destruct (f a) as [ret args'] end. cbn [fst snd] in R, A.
  rewrite put_other. 2:{ intros I. apply at_addr_span in I. specialize (SF (l_ret L) (x - p) (or_introl eq_refl)). unfold in_field in SF. lia. }
  apply put_other. intros I. apply (arg_stores_in p _ _ _ A) in I as (g & G1 & G2).
  specialize (SF g (x - p) (or_intror G1) G2). lia.
Qed.

(** C65 (limit). A sandbox that does not run the function can make the call return
    anything. *)
Theorem result_is_the_sandbox_choice : forall p L args m r, sensible L -> sized L args -> 0 <= l_size L ->
  length r = snd (l_ret L) ->
  exists send, fst (fst (call (fun _ m => m) send p L args m)) = r.
Proof.
  intros p L args m r S SZ SL R. exists (run_function (fun _ => (r, [])) p L).
  exact (call_is_function (fun _ m => m) (fun _ => (r, [])) p L args m S SZ SL (fun _ _ _ _ => eq_refl) R).
Qed.

(** *** The type check of debug builds *)

Lemma strcmp_spec see : forall name pre k, length pre = k ->
  (forall j, (j < k)%nat -> see j = nth j pre 0) ->
  ~ In 0 name ->
  let '(same, n) := strcmp_from see k (name ++ [0]) in
  (k < n)%nat /\ (n <= k + length name + 1)%nat /\
  (same = true <-> forall j, (j <= length name)%nat -> see (k + j)%nat = nth j (name ++ [0]) 0).
Proof.
  induction name as [|c name IH]; intros pre k L E N; cbn [app strcmp_from].
  - destruct (Z.eqb_spec (see k) 0) as [X|X]; cbn.
    + split; [lia|]. split; [lia|]. split; [|reflexivity]. intros _ [|j] J; [rewrite Nat.add_0_r; exact X|lia].
    + split; [lia|]. split; [lia|]. split; [discriminate|]. intros H. specialize (H 0%nat ltac:(lia)). rewrite Nat.add_0_r in H. contradiction.
  - destruct (Z.eqb_spec (see k) c) as [X|X].
    + destruct (Z.eqb_spec c 0) as [C|C]; [exfalso; apply N; left; auto|].
      specialize (IH (pre ++ [c]) (S k)). destruct (strcmp_from see (S k) (name ++ [0])) as [same n].
      destruct IH as (A & B & D).
      * rewrite app_length. cbn. lia.
      * intros j J. destruct (Nat.eq_dec j k) as [->|NE]; [rewrite app_nth2, <- L, Nat.sub_diag by lia; cbn; congruence|].
        rewrite app_nth1 by lia. apply E. lia.
      * intros I. apply N. right. exact I.
      * cbn [length]. split; [lia|]. split; [lia|]. rewrite D. split; intros H.
        -- intros [|j] J; [rewrite Nat.add_0_r; exact X|]. cbn [nth]. rewrite <- H by (cbn in J; lia). f_equal. lia.
        -- intros j J. specialize (H (S j) ltac:(cbn; lia)). cbn [nth] in H. rewrite <- H. f_equal. lia.
    + cbn [length]. split; [lia|]. split; [lia|]. split; [discriminate|]. intros H. specialize (H 0%nat ltac:(lia)).
      rewrite Nat.add_0_r in H. contradiction.
Qed.

(** C65. The check passes exactly if the bytes found are the host's own name for the
    type, with its end; it never reads further than that name is long, and the
    host frees the string it checked and nothing else. *)
Theorem type_check_exact : forall see ptr name, ~ In 0 name -> ptr <> 0 ->
  let '(res, read, freed) := type_check see ptr (name ++ [0]) in
  (res = CheckPassed <-> forall j, (j <= length name)%nat -> see j = nth j (name ++ [0]) 0) /\
  (exists n, (1 <= n <= length name + 1)%nat /\ read = span ptr n) /\
  freed = match res with CheckPassed => [ptr] | HostExit => [] end.
Proof.
  intros see ptr name N P. unfold type_check. destruct (Z.eqb_spec ptr 0); [contradiction|].
  pose proof (strcmp_spec see name [] 0 eq_refl ltac:(intros; lia) N) as H.
  destruct (strcmp_from see 0 (name ++ [0])) as [same n']. destruct H as (A & B & D). cbn [plus] in D.
  destruct same.
  - split; [split; [intros _; apply D; reflexivity|reflexivity]|]. split; [exists n'; split; [lia|reflexivity]|reflexivity].
  - split; [split; [discriminate|intros H; apply D in H; discriminate]|]. split; [exists n'; split; [lia|reflexivity]|reflexivity].
Qed.

(** C65 (limit). The pointer is not compared with the sandbox's bounds: a hostile
    sandbox makes the host read at any address, and if the bytes there are the
    type's name, free it. *)
Theorem type_check_any_address : forall ptr name, ~ In 0 name -> ptr <> 0 ->
  (forall see, In ptr (snd (fst (type_check see ptr (name ++ [0]))))) /\
  (exists see, snd (type_check see ptr (name ++ [0])) = [ptr]).
Proof.
  intros ptr name N P. split.
  - intros see. pose proof (type_check_exact see ptr name N P) as H. destruct (type_check _ _ _) as [[res read] freed].
    destruct H as (_ & (n & B & ->) & _). unfold span. apply in_map_iff. exists 0%nat. split; [lia|apply in_seq; lia].
  - exists (fun j => nth j (name ++ [0]) 0). pose proof (type_check_exact (fun j => nth j (name ++ [0]) 0) ptr name N P) as H.
    destruct (type_check _ _ _) as [[res read] freed]. destruct H as (A & _ & F). cbn. rewrite F.
    rewrite (proj2 A) by reflexivity. reflexivity.
Qed.

(** A frame of 24 bytes: an 8-byte result, a 4-byte and an 8-byte argument; the
    sandbox meanwhile scribbles over memory outside the frame. *)
Definition ex_layout : layout := Layout 24 (0, 8%nat) [(8, 4%nat); (16, 8%nat)].
Definition ex_adv (k : nat) (m : memory) : memory := fun x => if (100 <=? x) && (x <? 124) then m x else Z.of_nat k.
Definition ex_fn (args : list (list Z)) : list Z * list (list Z) :=
  (match args with [a; b] => a ++ firstn 4 b | _ => [] end, []).
Example frame_ex : sensible ex_layout /\ sized ex_layout [[1; 2; 3; 4]; [5; 6; 7; 8; 9; 10; 11; 12]] /\
  (forall k m x, 100 <= x < 100 + l_size ex_layout -> ex_adv k m x = m x) /\
  fst (fst (call ex_adv (run_function ex_fn 100 ex_layout) 100 ex_layout [[1; 2; 3; 4]; [5; 6; 7; 8; 9; 10; 11; 12]] (fun _ => 77)))
    = [1; 2; 3; 4; 5; 6; 7; 8].
Proof.
  split; [|split; [|split]].
  - split.
    + intros f x I. cbn in I. unfold in_field. destruct I as [<-|[<-|[<-|[]]]]; cbn; lia.
    + unfold fields. cbn. repeat (apply FOP_cons || apply FOP_nil || apply Forall_cons || apply Forall_nil); unfold in_field; cbn; intros; lia.
  - repeat constructor.
  - intros k m x X. unfold ex_adv. cbn in X. destruct (Z.leb_spec 100 x), (Z.ltb_spec x 124); try lia. reflexivity.
  - vm_compute. reflexivity.
Qed.
Definition ex_swap (args : list (list Z)) : list Z * list (list Z) := (repeat 1 8, [repeat 2 4; repeat 3 8]).
Example function_writes_ex : (forall args, length (fst (ex_swap args)) = snd (l_ret ex_layout) /\ sized ex_layout (snd (ex_swap args))) /\
  bytes_at (run_function ex_swap 100 ex_layout (fun _ => 77)) 99 26 =
    [77; 1; 1; 1; 1; 1; 1; 1; 1; 2; 2; 2; 2; 77; 77; 77; 77; 3; 3; 3; 3; 3; 3; 3; 3; 77].
Proof. split; [intros args; split; [reflexivity|repeat constructor]|vm_compute; reflexivity]. Qed.
Example type_check_ex :
  type_check (fun j => nth j [80; 70; 0] 5) 4096 [80; 70; 0] = (CheckPassed, [4096; 4097; 4098], [4096]) /\
  type_check (fun j => nth j [80; 71; 0] 5) 4096 [80; 70; 0] = (HostExit, [4096; 4097], []).
Proof. split; reflexivity. Qed.

Print Assumptions call_accesses.
Print Assumptions call_is_function.
Print Assumptions function_writes_in_frame.
Print Assumptions reference_arguments_updated_refuted.
Print Assumptions result_is_the_sandbox_choice.
Print Assumptions type_check_exact.
Print Assumptions type_check_any_address.
