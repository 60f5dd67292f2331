(** The claimed theorems about function numbering (C41). *)
From Coq Require Import String Ascii List ZArith Bool Lia Arith.
From Verif Require Import Base VtableModel.
Import ListNotations.
Open Scope Z_scope.

(** What a library exports, as its author sees it: functions with signatures. *)
Definition users (us : list (nat * text)) : list fn := map (fun u => User (fst u) (snd u)) us.

Lemma exports_more a b : a <> [] -> fold_left export_function b a = a ++ b.
Proof.
  revert a. induction b as [|x b IH]; intros a N; cbn [fold_left]; [rewrite app_nil_r; auto|].
  unfold export_function at 2. destruct a as [|y a]; [congruence|]. cbn [length Nat.eqb andb]. rewrite IH.
  - unfold export_one. rewrite <- app_assoc. reflexivity.
  - unfold export_one. destruct a; discriminate.
Qed.
(** C41. The table is the type query followed by the exported functions in
    order (a library that exports anything). *)
Theorem exports_table us : us <> [] -> exports (users us) = TypeQuery :: users us.
Proof.
  intros N. destruct us as [|u us]; [congruence|]. unfold exports. cbn [users map fold_left].
  unfold export_function at 2. cbn. rewrite exports_more by discriminate. reflexivity.
Qed.
(** Exporting the type query explicitly first makes no difference. *)
Theorem exports_query_first us : exports (TypeQuery :: users us) = TypeQuery :: users us.
Proof. unfold exports. cbn [fold_left]. unfold export_function at 2. cbn. rewrite exports_more by discriminate. reflexivity. Qed.

Lemma call_query us sem ok mem idx l : us <> [] ->
  call (exports (users us)) sem ok (Some mem) (Func 0 query_sig) [VNum idx] l =
    match (if idx <? 0 then None else nth_error (TypeQuery :: users us) (Z.to_nat idx)) with
    | None => (Throws_terminated, Lib (last_vtable_entry l) (frames l ++ [mem]) (strings l))
    | Some g => (Returns (VStr (if ok then Some (sig_of g) else None)),
                 Lib (last_vtable_entry l) (frames l) (strings l + (if ok then 1 else 0)))
    end.
Proof.
  intros N. unfold call, sandbox_call. rewrite exports_table by auto. cbn [vtable_index f_sig Z.ltb Z.compare Z.to_nat nth_error].
  unfold run_fn. cbn [sig_of]. rewrite text_eqb_refl. cbn [negb].
  destruct (if idx <? 0 then None else nth_error (TypeQuery :: users us) (Z.to_nat idx)); auto.
  cbn [frames strings last_vtable_entry]. rewrite removelast_last. destruct ok; reflexivity.
Qed.

(** The i-th construction, with the counter at [1 + k]. *)
Lemma construct_query us sem ok mem sg l k : us <> [] -> last_vtable_entry l = 1 + Z.of_nat k ->
  construct true (exports (users us)) sem ok (Some mem) sg l =
    match nth_error us k with
    | None => (NotMade Throws_terminated, Lib (2 + Z.of_nat k) (frames l ++ [mem]) (strings l))
    | Some u => if ok then
                  if text_eqb (snd u) sg then (Made (Func (1 + Z.of_nat k) sg), Lib (2 + Z.of_nat k) (frames l) (strings l))
                  else (HostExits, Lib (2 + Z.of_nat k) (frames l) (strings l + 1))
                else (HostExits, Lib (2 + Z.of_nat k) (frames l) (strings l))
    end.
Proof.
  intros N K. unfold construct, next_vtable_entry. rewrite call_query by auto. cbn [last_vtable_entry frames strings]. rewrite K.
  destruct (Z.ltb_spec (1 + Z.of_nat k) 0); [lia|].
  replace (Z.to_nat (1 + Z.of_nat k)) with (S k) by lia. cbn [nth_error]. unfold users. rewrite nth_error_map.
  replace (1 + Z.of_nat k + 1) with (2 + Z.of_nat k) by lia.
  destruct (nth_error us k) as [u|]; cbn [option_map]; auto. destruct ok; cbn [sig_of].
  - destruct (text_eqb (snd u) sg); auto. cbn [last_vtable_entry frames strings]. rewrite Nat.add_1_r. reflexivity.
  - rewrite Nat.add_0_r. reflexivity.
Qed.

Lemma construct_all_release us sem mem : forall sgs l k, last_vtable_entry l = 1 + Z.of_nat k ->
  forall i sg, nth_error sgs i = Some sg ->
  nth_error (fst (construct_all false (exports (users us)) sem mem sgs l)) i = Some (Made (Func (1 + Z.of_nat (k + i)) sg)).
Proof.
  induction sgs as [|sg sgs IH]; intros l k K i s H; [destruct i; discriminate|].
  cbn [construct_all]. unfold construct, next_vtable_entry. rewrite K.
  specialize (IH (Lib (1 + Z.of_nat k + 1) (frames l) (strings l)) (S k) ltac:(cbn [last_vtable_entry]; lia)).
  destruct (construct_all false (exports (users us)) sem mem sgs _) as [ms l2]. cbn [fst] in *.
  destruct i as [|i]; cbn [nth_error] in *.
  - injection H as ->. rewrite Nat.add_0_r. reflexivity.
  - rewrite (IH i s H). replace (k + S i)%nat with (S k + i)%nat by lia. reflexivity.
Qed.
Lemma construct_all_debug us sem mem : us <> [] -> forall sgs l k, last_vtable_entry l = 1 + Z.of_nat k ->
  (forall i sg, nth_error sgs i = Some sg -> option_map snd (nth_error us (k + i)) = Some sg) ->
  (forall i sg, nth_error sgs i = Some sg ->
     nth_error (fst (construct_all true (exports (users us)) sem mem sgs l)) i = Some (Made (Func (1 + Z.of_nat (k + i)) sg)))
  /\ frames (snd (construct_all true (exports (users us)) sem mem sgs l)) = frames l
  /\ strings (snd (construct_all true (exports (users us)) sem mem sgs l)) = strings l.
Proof.
  intros N. induction sgs as [|sg sgs IH]; intros l k K H.
  - split; [|split; reflexivity]. intros i s X. destruct i; discriminate.
  - pose proof (H 0%nat sg eq_refl) as H0. rewrite Nat.add_0_r in H0.
    cbn [construct_all]. rewrite (construct_query us sem true mem sg l k N K).
    destruct (nth_error us k) as [u|]; [|discriminate]. cbn in H0. injection H0 as ->. rewrite text_eqb_refl.
    destruct (IH (Lib (2 + Z.of_nat k) (frames l) (strings l)) (S k) ltac:(cbn [last_vtable_entry]; lia)) as (A & B & C).
    { intros i s X. rewrite <- (H (S i) s X). do 2 f_equal. lia. }
    destruct (construct_all true (exports (users us)) sem mem sgs _) as [ms l2]. cbn [fst snd] in *.
    split; [|split; auto]. intros [|i] s X; cbn [nth_error] in *.
    + injection X as ->. rewrite Nat.add_0_r. reflexivity.
    + rewrite (A i s X). replace (k + S i)%nat with (S k + i)%nat by lia. reflexivity.
Qed.

(** C41. If the host declares its functions in the order and with the
    signatures the library exports them, then in either build every declaration
    succeeds, and calling the i-th one runs exactly the i-th exported function on
    the given arguments and yields its result; if that function crashes or
    throws, the caller gets an exception. *)
Theorem nth_function_calls_nth_export debug us sem mem i id sg :
  nth_error us i = Some (id, sg) ->
  let fs := exports (users us) in
  let made_all := construct_all debug fs sem mem (map snd us) new_lib in
  exists f, nth_error (fst made_all) i = Some (Made f)
    /\ forall args ok p l,
         fst (call fs sem ok (Some p) f args l) = match sem id args with Some v => Returns v | None => Throws_terminated end.
Proof.
  intros H fs made_all. assert (N : us <> []) by (intros ->; destruct i; discriminate).
  exists (Func (1 + Z.of_nat i) sg). split.
  - assert (HS : nth_error (map snd us) i = Some sg) by (rewrite nth_error_map, H; reflexivity).
    unfold made_all, fs. destruct debug.
    + destruct (construct_all_debug us sem mem N (map snd us) new_lib 0 eq_refl) as (A & _).
      { intros j s X. rewrite nth_error_map in X. exact X. }
      apply (A i sg HS).
    + apply (construct_all_release us sem mem (map snd us) new_lib 0 eq_refl i sg HS).
  - intros args ok p l. unfold call, sandbox_call, fs. rewrite exports_table by auto. cbn [vtable_index f_sig].
    destruct (Z.ltb_spec (1 + Z.of_nat i) 0); [lia|]. replace (Z.to_nat (1 + Z.of_nat i)) with (S i) by lia.
    cbn [nth_error]. unfold users. rewrite nth_error_map, H. cbn [option_map]. unfold run_fn. cbn [sig_of fst snd].
    rewrite text_eqb_refl. cbn [negb]. destruct (sem id args); reflexivity.
Qed.

(** C41. Declarations that succeed never index outside the exported table, in a
    debug build: whatever list of signatures the host declares, every Function
    it gets has the signature exported at its index. *)
Theorem debug_functions_match us sem mem sgs l k i f :
  us <> [] -> last_vtable_entry l = 1 + Z.of_nat k ->
  nth_error (fst (construct_all true (exports (users us)) sem mem sgs l)) i = Some (Made f) ->
  vtable_index f = 1 + Z.of_nat (k + i)
  /\ option_map snd (nth_error us (k + i)) = Some (f_sig f) /\ nth_error sgs i = Some (f_sig f).
Proof.
  intros N. revert l k i. induction sgs as [|sg sgs IH]; intros l k i K H; [destruct i; discriminate|].
  cbn [construct_all] in H. rewrite (construct_query us sem true mem sg l k N K) in H.
  destruct (nth_error us k) as [u|] eqn:U; [|destruct i as [|[|i]]; discriminate].
  destruct (text_eqb_spec (snd u) sg) as [E|E]; [|destruct i as [|[|i]]; discriminate].
  specialize (IH (Lib (2 + Z.of_nat k) (frames l) (strings l)) (S k)).
  destruct (construct_all true (exports (users us)) sem mem sgs _) as [ms l2]. cbn [fst] in *.
  destruct i as [|i]; cbn [nth_error] in *.
  - injection H as <-. cbn. rewrite Nat.add_0_r, U. cbn. rewrite E. auto.
  - destruct (IH i ltac:(cbn [last_vtable_entry]; lia) H) as (A & B & C). replace (k + S i)%nat with (S k + i)%nat by lia. auto.
Qed.
(** C41. The first declaration that disagrees stops the host (wrong signature)
    or throws (nothing exported there); the earlier ones are unaffected. *)
Theorem debug_stops_at_first_mismatch us sem mem good sg rest :
  us <> [] ->
  (forall i s, nth_error good i = Some s -> option_map snd (nth_error us i) = Some s) ->
  option_map snd (nth_error us (length good)) <> Some sg ->
  exists ms, fst (construct_all true (exports (users us)) sem mem (good ++ sg :: rest) new_lib)
      = ms ++ [match nth_error us (length good) with Some _ => HostExits | None => NotMade Throws_terminated end]
    /\ length ms = length good.
Proof.
  intros N H X.
  assert (G : forall l k, last_vtable_entry l = 1 + Z.of_nat k ->
     (forall i s, nth_error good i = Some s -> option_map snd (nth_error us (k + i)) = Some s) ->
     option_map snd (nth_error us (k + length good)) <> Some sg ->
     exists ms, fst (construct_all true (exports (users us)) sem mem (good ++ sg :: rest) l)
      = ms ++ [match nth_error us (k + length good) with Some _ => HostExits | None => NotMade Throws_terminated end]
      /\ length ms = length good).
  { clear H X. induction good as [|g good IH]; intros l k K H X.
    - cbn [app construct_all]. rewrite (construct_query us sem true mem sg l k N K). rewrite Nat.add_0_r in X |- *.
      exists []. split; auto. destruct (nth_error us k) as [u|]; [|reflexivity]. cbn in X.
      destruct (text_eqb_spec (snd u) sg); [congruence|reflexivity].
    - cbn [app construct_all]. rewrite (construct_query us sem true mem g l k N K).
      pose proof (H 0%nat g eq_refl) as H0. rewrite Nat.add_0_r in H0. destruct (nth_error us k) as [u|]; [|discriminate].
      cbn in H0. injection H0 as ->. rewrite text_eqb_refl.
      destruct (IH (Lib (2 + Z.of_nat k) (frames l) (strings l)) (S k)) as (ms & A & B).
      + cbn [last_vtable_entry]. lia.
      + intros i s Y. rewrite <- (H (S i) s Y). do 2 f_equal. lia.
      + cbn [length] in X. rewrite <- plus_n_Sm in X. exact X.
      + destruct (construct_all true (exports (users us)) sem mem (good ++ sg :: rest) _) as [ms2 l2]. cbn [fst] in *.
        eexists (_ :: ms). cbn [length app]. rewrite A, <- plus_n_Sm. split; [reflexivity|lia]. }
  apply (G new_lib 0%nat eq_refl); auto.
Qed.

(** C41. A normal call leaves no frame behind. *)
Theorem call_frees_frame fs sem ok p f args l v l' :
  call fs sem ok (Some p) f args l = (Returns v, l') -> frames l' = frames l /\ last_vtable_entry l' = last_vtable_entry l.
Proof.
  unfold call. destruct (sandbox_call fs sem ok (vtable_index f) (f_sig f) args); intros E; try discriminate.
  injection E as _ <-. cbn. rewrite removelast_last. auto.
Qed.

(** C41, limit. A call that ends because the sandbox died leaves its frame
    allocated in the sandbox's heap. *)
Theorem dead_call_keeps_frame fs sem ok p f args l l' :
  call fs sem ok (Some p) f args l = (Throws_terminated, l') -> frames l' = frames l ++ [p].
Proof.
  unfold call. destruct (sandbox_call fs sem ok (vtable_index f) (f_sig f) args); intros E; try discriminate.
  injection E as <-. reflexivity.
Qed.
(** C41. All the declarations of a matching interface leave neither a frame nor
    a type string behind. *)
Theorem matching_declarations_free_everything us sem mem :
  us <> [] ->
  let l := snd (construct_all true (exports (users us)) sem mem (map snd us) new_lib) in frames l = [] /\ strings l = 0%nat.
Proof.
  intros N l. destruct (construct_all_debug us sem mem N (map snd us) new_lib 0 eq_refl) as (_ & B & C); auto.
  intros j s X. rewrite nth_error_map in X. exact X.
Qed.

(** C41, limits. A release build does not look: a declaration beyond the
    exported functions succeeds and its calls are undefined, as are those of one
    with another signature. *)
Theorem release_mismatch_detected_refuted us sem mem sgs i sg args ok p l :
  us <> [] -> nth_error sgs i = Some sg -> option_map snd (nth_error us i) <> Some sg ->
  exists f, nth_error (fst (construct_all false (exports (users us)) sem mem sgs new_lib)) i = Some (Made f)
    /\ fst (call (exports (users us)) sem ok (Some p) f args l) = Undefined.
Proof.
  intros N H X. eexists. split; [apply (construct_all_release us sem mem sgs new_lib 0 eq_refl i sg H)|].
  unfold call, sandbox_call. rewrite exports_table by auto. cbn [vtable_index f_sig Nat.add].
  destruct (Z.ltb_spec (1 + Z.of_nat i) 0); [lia|]. replace (Z.to_nat (1 + Z.of_nat i)) with (S i) by lia.
  cbn [nth_error]. unfold users. rewrite nth_error_map. destruct (nth_error us i) as [u|]; cbn [option_map] in *; [|reflexivity].
  unfold run_fn. cbn [sig_of]. destruct (text_eqb_spec (snd u) sg); [congruence|reflexivity].
Qed.
(** A library that exports nothing has no type query either, so in a debug build
    the very first declaration is undefined. *)
Theorem empty_library_query_undefined sem ok mem sg l :
  fst (construct true (exports []) sem ok (Some mem) sg l) = NotMade Undefined.
Proof. reflexivity. Qed.

(** A library with two functions; both are declared, and the second adds. *)
Definition ex_us : list (nat * text) := [(7%nat, tx "PFvvE"); (9%nat, tx "PFiiiE")].
Definition ex_sem (id : nat) (args : list val) : option val :=
  match id, args with 9%nat, [VNum a; VNum b] => Some (VNum (a + b)) | _, _ => None end.
Example vtable_ex :
  fst (construct_all true (exports (users ex_us)) ex_sem 64 (map snd ex_us) new_lib)
    = [Made (Func 1 (tx "PFvvE")); Made (Func 2 (tx "PFiiiE"))]
  /\ fst (call (exports (users ex_us)) ex_sem true (Some 64) (Func 2 (tx "PFiiiE")) [VNum 3; VNum 4] new_lib) = Returns (VNum 7).
Proof. split; reflexivity. Qed.
Example vtable_ex_mismatch :
  fst (construct_all true (exports (users ex_us)) ex_sem 64 [tx "PFvvE"; tx "PFvvE"; tx "PFvvE"] new_lib)
    = [Made (Func 1 (tx "PFvvE")); HostExits].
Proof. reflexivity. Qed.

Print Assumptions exports_table.
Print Assumptions exports_query_first.
Print Assumptions nth_function_calls_nth_export.
Print Assumptions debug_functions_match.
Print Assumptions debug_stops_at_first_mismatch.
Print Assumptions call_frees_frame.
Print Assumptions dead_call_keeps_frame.
Print Assumptions matching_declarations_free_everything.
Print Assumptions release_mismatch_detected_refuted.
Print Assumptions empty_library_query_undefined.
