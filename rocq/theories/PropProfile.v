(** PropProfile.v -- C58: debug and release builds.
    [debug c], [release c]: the target c compiled with and without overflow checks.
    [same_value d r] / [same_method d r] (Profile.v): d panics with an arithmetic overflow, or r is d --
    the same value or panic and the same state afterwards. *)
From Verif Require Import ProfileFacts ProfileUser Witness PropProg PropUser.
Open Scope N_scope.

(** Whatever the state of the vectors (valid or not) and the element type (lawful or not): a method of a release
    build does exactly what it does in a debug build -- result, panic, abort or undefined behaviour, contents,
    unused bits, length and capacity -- unless the debug build panics with an arithmetic overflow. *)
Theorem C58_methods : forall T (c : cfg) (E : enumlike T), let d := debug c in let r := release c in
  (forall x, same_method (push d E x) (push r E x)) /\ same_method (pop d E) (pop r E) /\
  (forall i x, same_method (insert d E i x) (insert r E i x)) /\ (forall i, same_method (remove d E i) (remove r E i)) /\
  (forall a b, same_method (swap d E a b) (swap r E a b)) /\ (forall i, same_method (swap_remove d E i) (swap_remove r E i)) /\
  (forall i x, same_method (set d E i x) (set r E i x)) /\ (forall i v, same_value (get d E i v) (get r E i v)) /\
  (forall n x, same_method (resize d E n x) (resize r E n x)) /\ (forall k, same_method (reserve d E k) (reserve r E k)) /\
  same_method (shrink_to_fit d E) (shrink_to_fit r E) /\ (forall it, same_method (extend d E it) (extend r E it)) /\
  same_method (append d E) (append r E) /\ (forall n, same_method (split_off d E n) (split_off r E n)) /\
  (forall St f (st : St), same_method (retain d E f st) (retain r E f st)) /\ (forall St f (st : St), same_method (for_each d E f st) (for_each r E f st)) /\
  (forall x v, same_value (any d E x v) (any r E x v)) /\ (forall x v, same_value (all d E x v) (all r E x v)) /\
  (forall v w, same_value (eq d E v w) (eq r E v w)) /\ (forall v, same_value (hash d E v) (hash r E v)) /\
  (forall v, same_value (to_vec d E v) (to_vec r E v)) /\ (forall n, same_value (with_capacity d E n) (with_capacity r E n)) /\
  (forall x n, same_value (from_elem d E x n) (from_elem r E x n)) /\ (forall it, same_value (from_iter d E it) (from_iter r E it)) /\
  (forall i v, same_value (get_raw_unchecked d E i v) (get_raw_unchecked r E i v)) /\
  (forall i n, same_method (set_raw_unchecked d E i n) (set_raw_unchecked r E i n)).
Proof.
  intros T c E d r. subst d r. split; [intros; apply p_push|]. split; [apply p_pop|]. split; [intros; apply p_insert|]. split; [intros; apply p_remove|].
  split; [intros; apply p_swap|]. split; [intros; apply p_swap_remove|]. split; [intros; apply p_set|]. split; [intros; apply p_get|].
  split; [intros; apply p_resize|]. split; [intros; apply p_reserve|]. split; [apply p_shrink|]. split; [intros; apply p_extend|].
  split; [apply p_append|]. split; [intros; apply p_split_off|]. split; [intros; apply p_retain|]. split; [intros; apply p_for_each|].
  split; [intros; apply p_any|]. split; [intros; apply p_all|]. split; [intros; apply p_eq|]. split; [intros; apply p_hash|].
  split; [intros; apply p_to_vec|]. split; [intros; apply sv_refl|]. split; [intros; unfold from_elem; apply p_build, p_with_value|].
  split; [intros; unfold from_iter; apply p_build, p_extend|]. split; [intros; apply p_get_u|]. intros; apply p_set_u.
Qed.
(** So for any program: if no call panics in a debug build, the release build answers every call alike
    and leaves bit for bit the same vectors; up to the first panic of the debug build, in any case. *)
Theorem C58_programs : forall T (c : cfg) (E : enumlike T) p prog, ~ In (MRes RPanic) (fst (m_run (debug c) E p prog)) ->
  m_run (release c) E p prog = m_run (debug c) E p prog.
Proof. intros T c E p prog H. apply p_run. exact H. Qed.
Theorem C58_clients : forall T (c : cfg) (E : enumlike T) (k : client T) n seen p, ~ In (MRes RPanic) (m_play (debug c) E n k seen p) ->
  m_play (release c) E n k seen p = m_play (debug c) E n k seen p.
Proof.
  intros T c E k n. induction n as [|n IH]; intros seen p H; cbn [m_play] in *; [reflexivity|]. destruct (k seen) as [o|]; [|reflexivity].
  destruct (p_step c E p o) as [G|G].
  - exfalso. destruct (m_step (debug c) E p o) as [r p']. cbn in G. subst r. apply H. left. reflexivity.
  - rewrite <- G. destruct (m_step (debug c) E p o) as [[x| | |] p']; try reflexivity. rewrite IH; [reflexivity|]. intros X. apply H. right. exact X.
Qed.
(** The same where to_discr, from_discr, Clone, closures, iterators and hashers are arbitrary code with state that may
    panic or be undefined (User.v): also the user's state u is the same afterwards. *)
Theorem C58_user_code : forall U T (c : cfg) (X : usercode U T), let d := debug c in let r := release c in
  (forall s o, fst (w_step d X s o) = MRes RPanic \/ w_step d X s o = w_step r X s o) /\
  (forall (k : wclient U T) n seen s, ~ In (MRes RPanic) (fst (w_play d X n k seen s)) -> w_play r X n k seen s = w_play d X n k seen s).
Proof. intros U T c X d r. split; [intros; apply pu_step|intros; apply pu_play; assumption]. Qed.
(** A program that reallocates, inserts and removes across blocks, and panics in no call; and one that
    panics in debug only: inserting 8-bit elements in 8-bit storage. *)
Example C58_example :
  debug u32_release = u32_debug /\ release u32_debug = u32_release /\
  existsb (fun r => match r with MRes RPanic => true | _ => false end)
    (seen u32_debug (fin 5) [OFromSlice (map f5 [1;2;3;4;0;1;2;3;4;0;1;2;3;4;0;1;2;3;4]); OInsert 0 3 (f5 1); ORemove 0 0; OToVec 0; OHash 0]) = false /\
  seen (debug u8_release) (fin 256) [OFromSlice (map f256 [1; 2]); OInsert 0 0 (f256 3); OToVec 0] = [MRes RUnit; MRes RPanic; MRes (RList (map f256 [1; 2; 3]))] /\
  seen (release u8_release) (fin 256) [OFromSlice (map f256 [1; 2]); OInsert 0 0 (f256 3); OToVec 0] = [MRes RUnit; MRes RUnit; MRes (RList (map f256 [3; 3; 3]))].
Proof.
  split; [reflexivity|]. split; [reflexivity|]. split; [vm_compute; reflexivity|]. split; vm_compute; reflexivity.
Qed.
(** User code with state, none of whose calls panics in the debug build. *)
Definition gentle : usercode N N := mkUser 4 (fun x u => (Ret ((x + u) mod 16), u + 1)) (fun d u => (Ret (d * 10 + u), u + 1)) (fun x u => (Ret x, u)).
Definition gentle_client : wclient N N := fun seen _ =>
  nth_error [WFromVec [1; 2; 3]; WPush 0 9; WRead 0 2; WInsert 0 1 7; WRemove 0 0; WRetain 0 (fun x u => (Ret (N.even x), u + 1)); WResize 0 9 5; WRead 0 8; WPop 0] (length seen).
Example C58_user_example :
  fst (w_play (debug u32_debug) gentle 30 gentle_client [] ([], 0)) = fst (w_play (release u32_debug) gentle 30 gentle_client [] ([], 0)) /\
  length (fst (w_play (debug u32_debug) gentle 30 gentle_client [] ([], 0))) = 9%nat /\
  ~ In (MRes RPanic) (fst (w_play (debug u32_debug) gentle 30 gentle_client [] ([], 0))).
Proof. split; [vm_compute; reflexivity|]. split; [vm_compute; reflexivity|]. vm_compute. intuition discriminate. Qed.
