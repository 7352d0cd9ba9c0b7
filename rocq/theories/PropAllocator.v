(** PropAllocator.v -- C59: the allocator, the growth policy and the container are not observable.
    [over k c]: the crate c on the container k -- SmallVec or Vec, its growth and shrink policy, the allocator's limit.
    [alike]: same storage blocks and length, capacities may differ.  [answers_alike], [acts_alike] (Allocator.v):
    the same answer and alike states afterwards, unless one of the two ran out of memory. *)
From Verif Require Import AllocatorFacts AllocatorUser Witness PropProg PropUser Profile PropProfile.
Open Scope N_scope.

(** Whatever the state of the vectors (valid or not) and the element type (lawful or not): from vectors alike but for
    their capacity each method answers the same on both containers and leaves the same blocks, bit for bit. *)
Theorem C59_methods : forall T (c : cfg) (E : enumlike T) (k1 k2 : container), let a := over k1 c in let b := over k2 c in
  let same A (m m' : M ev A) := acts_alike alike Logic.eq m m' in
  (forall x, same _ (push a E x) (push b E x)) /\ same _ (pop a E) (pop b E) /\
  (forall i x, same _ (insert a E i x) (insert b E i x)) /\ (forall i, same _ (remove a E i) (remove b E i)) /\
  (forall i j, same _ (swap a E i j) (swap b E i j)) /\ (forall i, same _ (swap_remove a E i) (swap_remove b E i)) /\
  (forall i x, same _ (set a E i x) (set b E i x)) /\ (forall n x, same _ (resize a E n x) (resize b E n x)) /\
  (forall n, same _ (reserve a E n) (reserve b E n)) /\ same _ (shrink_to_fit a E) (shrink_to_fit b E) /\
  (forall it, same _ (extend a E it) (extend b E it)) /\
  (forall St f (st : St), same _ (retain a E f st) (retain b E f st)) /\ (forall St f (st : St), same _ (for_each a E f st) (for_each b E f st)) /\
  (forall n, acts_alike alike alike (split_off a E n) (split_off b E n)) /\
  (is_small k1 = is_small k2 -> acts_alike alike2 Logic.eq (append a E) (append b E)) /\
  (forall n, answers_alike alike (with_capacity a E n) (with_capacity b E n)) /\
  (forall x n, answers_alike alike (from_elem a E x n) (from_elem b E x n)) /\ (forall it, answers_alike alike (from_iter a E it) (from_iter b E it)) /\
  (forall v w, alike v w ->
     answers_alike alike (clone a v) (clone b w) /\ (forall i, get a E i v = get b E i w) /\ (forall x, any a E x v = any b E x w) /\
     (forall x, all a E x v = all b E x w) /\ hash a E v = hash b E w /\ to_vec a E v = to_vec b E w /\ len v = len w /\
     forall v2 w2, alike v2 w2 -> eq a E v v2 = eq b E w w2).
Proof.
  intros T c E k1 k2 a b same. subst a b same. cbv beta.
  split; [intros; apply r_push|]. split; [apply r_pop|]. split; [intros; apply r_insert|]. split; [intros; apply r_remove|].
  split; [intros; apply r_swap|]. split; [intros; apply r_swap_remove|]. split; [intros; apply r_set|]. split; [intros; apply r_resize|].
  split; [intros; apply r_reserve|]. split; [apply r_shrink|]. split; [intros; apply r_extend|]. split; [intros; apply r_retain|].
  split; [intros; apply r_for_each|]. split; [intros; apply r_split_off|]. split; [intros; apply r_append; assumption|].
  split; [intros; apply r_with_cap|]. split; [intros; eapply r_build, r_with_value|]. split; [intros; eapply r_build, r_extend|].
  intros v w H. split; [apply r_clone, H|]. split; [intros; destruct v as [[d n] l], w as [[d' n'] l']; destruct H as [H1 H2]; cbn in H1, H2; subst; reflexivity|].
  split; [intros; apply r_any, H|]. split; [intros; apply r_all, H|]. split; [apply r_hash, H|]. split; [apply r_to_vec, H|].
  split; [exact (proj2 H)|]. intros v2 w2 H2. apply r_eqv; assumption.
Qed.
(** So for any program in which neither run hits the allocator's limit: the same answers to all calls, and the same
    vectors bit for bit.  Between SmallVec and Vec as well, if the program does not append (see C59_append). *)
Theorem C59_programs : forall T (c : cfg) (E : enumlike T) (k1 k2 : container) prog, is_small k1 = is_small k2 \/ forallb no_append prog = true ->
  forall p q, Forall2 alike p q -> existsb memory (fst (m_run (over k1 c) E p prog)) = false -> existsb memory (fst (m_run (over k2 c) E q prog)) = false ->
  fst (m_run (over k1 c) E p prog) = fst (m_run (over k2 c) E q prog) /\ Forall2 alike (snd (m_run (over k1 c) E p prog)) (snd (m_run (over k2 c) E q prog)).
Proof.
  intros T c E k1 k2 prog Hk p q H H1 H2. destruct (a_run c E k1 k2 prog Hk H) as [X|[X|X]]; [rewrite H1 in X; discriminate|rewrite H2 in X; discriminate|exact X].
Qed.
(** Clients that choose their calls from the answers: the answers are the same up to the first failure for lack
    of memory in one of the two runs (the last answer of that run). *)
Theorem C59_clients : forall T (c : cfg) (E : enumlike T) (k1 k2 : container) (k : client T), 
  is_small k1 = is_small k2 \/ (forall l o, k l = Some o -> no_append o = true) ->
  forall n seen p q, Forall2 alike p q ->
  exists l r r', m_play (over k1 c) E n k seen p = l ++ r /\ m_play (over k2 c) E n k seen q = l ++ r' /\
    ((r = [] /\ r' = []) \/ exists x, memory x = true /\ (r = [x] \/ r' = [x])).
Proof.
  intros T c E k1 k2 k Hk n. induction n as [|n IH]; intros seen p q H; cbn [m_play]; [exists [], [], []; auto|].
  destruct (k seen) as [o|] eqn:Ek; [|exists [], [], []; auto].
  assert (Hk1 : is_small k1 = is_small k2 \/ no_append o = true) by (destruct Hk as [Hk|Hk]; [left; exact Hk|right; exact (Hk _ _ Ek)]).
  pose proof (@a_step T c E k1 k2 p q o Hk1 H) as G. unfold step_alike in G.
  destruct (m_step (over k1 c) E p o) as [a p'], (m_step (over k2 c) E q o) as [b q']. cbn [fst snd] in G. destruct G as [G|[G|[<- G]]].
  - destruct a; try discriminate; eexists [], [_], _; (split; [reflexivity|]; split; [reflexivity|right; eexists; split; [|left; reflexivity]; reflexivity]).
  - destruct b; try discriminate; eexists [], _, [_]; (split; [reflexivity|]; split; [reflexivity|right; eexists; split; [|right; reflexivity]; reflexivity]).
  - destruct a as [x| | |]; try (eexists [_], [], []; split; [reflexivity|]; split; [reflexivity|left; split; reflexivity]).
    destruct (IH (seen ++ [x]) p' q' G) as [l [r [r' [-> [-> K]]]]]. exists (MRes x :: l), r, r'. auto.
Qed.
(** The same where to_discr, from_discr, Clone, closures, iterators and hashers are arbitrary code with state that may
    panic, differ from call to call or be undefined (User.v), for clients that see the user's state too: the same
    answers, the same state u and the same blocks up to the first failure for lack of memory in one of the two runs.
    (A call that never ends counts as such a failure: MAbort.) *)
Theorem C59_user_code : forall U T (c : cfg) (X : usercode U T) (k1 k2 : container) (k : wclient U T),
  is_small k1 = is_small k2 \/ (forall l u o, k l u = Some o -> w_no_append o = true) ->
  forall n seen p q u, Forall2 alike p q ->
  let a := w_play (over k1 c) X n k seen (p, u) in let b := w_play (over k2 c) X n k seen (q, u) in
  (fst a = fst b /\ Forall2 alike (fst (snd a)) (fst (snd b)) /\ snd (snd a) = snd (snd b)) \/
  exists l x t t', memory x = true /\ ((fst a = l ++ x :: t /\ fst b = l ++ t') \/ (fst a = l ++ t /\ fst b = l ++ x :: t')).
Proof.
  intros U T c X k1 k2 k Hk n. induction n as [|n IH]; intros seen p q u H; cbn [w_play]; [left; auto|]. cbn [fst snd].
  destruct (k seen u) as [o|] eqn:Ek; [|left; auto].
  assert (Hk1 : is_small k1 = is_small k2 \/ w_no_append o = true) by (destruct Hk as [Hk|Hk]; [left; exact Hk|right; exact (Hk _ _ _ Ek)]).
  pose proof (@au_step U T c X k1 k2 p q u o Hk1 H) as G. unfold wsame in G.
  destruct (w_step (over k1 c) X (p, u) o) as [a [p' u1]], (w_step (over k2 c) X (q, u) o) as [b [q' u2]]. cbn [fst snd] in G. destruct G as [G|[G|[<- [G <-]]]].
  - right. destruct a; try discriminate; [destruct (w_play (over k1 c) X n k _ (p', u1)) as [ra sa]|]; eexists [], _, _, _; (split; [|left; split; reflexivity]; reflexivity).
  - right. destruct b; try discriminate; [destruct (w_play (over k2 c) X n k _ (q', u2)) as [rb sb]|]; eexists [], _, _, _; (split; [|right; split; reflexivity]; reflexivity).
  - specialize (IH (seen ++ [a]) p' q' u1 G). cbv zeta in IH.
    destruct a as [x| | |]; try (left; split; [reflexivity|split; [exact G|reflexivity]]);
      (destruct (w_play (over k1 c) X n k _ (p', u1)) as [ra sa], (w_play (over k2 c) X n k _ (q', u1)) as [rb sb]; cbn [fst snd] in *;
       destruct IH as [[<- [IH1 IH2]]|(l & y & t & t' & Hy & [[-> ->]|[-> ->]])]; [left; auto|right..];
       [exists (MRes x :: l), y, t, t'; split; [exact Hy|left; split; reflexivity] || (exists (MCap :: l), y, t, t'; split; [exact Hy|left; split; reflexivity])
       |exists (MRes x :: l), y, t, t'; split; [exact Hy|right; split; reflexivity] || (exists (MCap :: l), y, t, t'; split; [exact Hy|right; split; reflexivity])]).
Qed.
(** So a clone can stand in for its original, and a vector made with_capacity for a new one: a program gets the same
    answers from either and leaves the same blocks, unless it runs out of memory in one of the two runs. *)
Lemma c_over c : over {| is_small := small c; grows := grow c; shrinks := shrink c; limit := alloc_max c |} c = c.
Proof. destruct c. reflexivity. Qed.
Lemma clone_alike c v w : clone c v = Ret w -> alike v w.
Proof.
  unfold clone, vec_clone, vec_extend_from, vec_ensure. repeat match goal with |- context [if ?b then _ else _] => destruct b end; cbn; intros [= <-]; split; reflexivity.
Qed.
Lemma cap_alike T c (E : enumlike T) n w : with_capacity c E n = Ret w -> alike (ev_new c) w.
Proof.
  unfold with_capacity, vec_with_capacity, vec_ensure. repeat match goal with |- context [if ?b then _ else _] => destruct b end; cbn; intros [= <-]; split; reflexivity.
Qed.
Lemma upd_alike : forall p r v w, nth_error p r = Some v -> alike v w -> Forall2 alike p (upd p r w).
Proof.
  assert (R : forall p, Forall2 alike p p) by (induction p; constructor; [apply alike_refl|assumption]).
  induction p as [|x p IH]; intros [|r] v w H1 H2; cbn in *; try discriminate; constructor; try apply R; try apply alike_refl.
  - injection H1 as ->. exact H2.
  - exact (IH _ _ _ H1 H2).
Qed.
Theorem C59_stand_in : forall T (c : cfg) (E : enumlike T) p r v w, nth_error p r = Some v ->
  (clone c v = Ret w \/ (v = ev_new c /\ exists n, with_capacity c E n = Ret w)) ->
  forall prog, existsb memory (fst (m_run c E p prog)) = false -> existsb memory (fst (m_run c E (upd p r w) prog)) = false ->
  fst (m_run c E (upd p r w) prog) = fst (m_run c E p prog) /\ Forall2 alike (snd (m_run c E p prog)) (snd (m_run c E (upd p r w) prog)).
Proof.
  intros T c E p r v w Hv Hw prog H1 H2. assert (A : alike v w). { destruct Hw as [Hw|[-> [n Hw]]]; [exact (clone_alike _ _ _ Hw)|exact (cap_alike _ _ _ _ _ Hw)]. }
  pose proof (C59_programs T c E _ {| is_small := small c; grows := grow c; shrinks := shrink c; limit := alloc_max c |} prog (or_introl eq_refl) p (upd p r w) (upd_alike _ _ _ _ Hv A)) as G.
  rewrite c_over in G. destruct (G H1 H2) as [G1 G2]. split; [symmetry; exact G1|exact G2].
Qed.
(** two containers: SmallVec doubling, and Vec growing to the next multiple of 10 with a small allocator *)
Definition doubling : container := {| is_small := true; grows := fun cap need => N.max (2 * cap) need; shrinks := fun cap n => N.min cap (N.max 4 n); limit := 2 ^ 40 |}.
Definition stepwise (l : N) : container := {| is_small := false; grows := fun _ need => 10 * (need / 10 + 1); shrinks := fun _ n => n; limit := l |}.
(** A program that grows, shrinks and clones: the same answers and the same blocks, different capacities;
    with an allocator limited to 20 bytes it fails where it needs the sixth block, and until then it answers the same. *)
Example C59_example :
  let prog := [OFromSlice (map f5 [1;2;3;4;0;1;2;3;4;0;1;2;3;4;0;1;2;3;4]); OInsert 0 3 (f5 1); OResize 0 30 (f5 2); OTruncate 0 25; OShrink 0; OClone 0; OInsert 1 2 (f5 0); OToVec 0; OToVec 1; OHash 1] in
  let big := [OFromSlice (map f5 [1;2;3]); OInsert 0 0 (f5 4); OToVec 0; OResize 0 100 (f5 1); OToVec 0] in
  let a := m_run (over doubling u32_debug) (fin 5) [] prog in let b := m_run (over (stepwise (2 ^ 40)) u32_debug) (fin 5) [] prog in
  length (fst a) = 10%nat /\ ~ In MUB (fst a) /\ forallb no_append prog = true /\ existsb memory (fst a) = false /\ existsb memory (fst b) = false /\
  fst a = fst b /\ map (fun v => data (storage v)) (snd a) = map (fun v => data (storage v)) (snd b) /\
  map (fun v => vcap (storage v)) (snd a) <> map (fun v => vcap (storage v)) (snd b) /\
  fst (m_run (over doubling u32_debug) (fin 5) [] big) =
    [MRes RUnit; MRes RUnit; MRes (RList (map f5 [4;1;2;3])); MRes RUnit; MRes (RList (map f5 ([4;1;2;3] ++ repeat 1 96)))] /\
  firstn 4 (fst (m_run (over (stepwise 40) u32_debug) (fin 5) [] big)) = [MRes RUnit; MRes RUnit; MRes (RList (map f5 [4;1;2;3])); MAbort].
Proof.
  cbv zeta. repeat (apply conj); try (vm_compute; reflexivity); vm_compute; intuition discriminate.
Qed.
(** Why append is excluded between SmallVec and Vec: their [append]s differ in what they leave in the other vector. *)
Example C59_append :
  let prog := [ONew; OFromSlice (map f5 [1;2;3]); OAppend 0 1; OToVec 0; OLen 1; OShrink 1; OPush 1 (f5 4); OToVec 1] in
  fst (m_run (over doubling u32_debug) (fin 5) [] prog) =
    [MRes RUnit; MRes RUnit; MRes RUnit; MRes (RList (map f5 [1;2;3])); MRes (RNum 0); MRes RUnit; MRes RUnit; MRes (RList (map f5 [4]))] /\
  fst (m_run (over (stepwise 40) u32_debug) (fin 5) [] prog) =
    [MRes RUnit; MRes RUnit; MRes RUnit; MRes (RList (map f5 [1;2;3])); MRes (RNum 3); MRes RUnit; MUB].
Proof. cbv zeta. split; vm_compute; reflexivity. Qed.
Example C59_stand_in_example :
  let v := nth 0 (snd (m_run u32_debug (fin 5) [] [OFromSlice (map f5 [1;2;3;4;0;1;2;3;4;0;1;2]); OResize 0 20 (f5 3); OPush 0 (f5 2)])) (ev_new u32_debug) in
  let w := match clone u32_debug v with Ret w => w | _ => v end in
  let prog := [OInsert 0 3 (f5 1); ORemove 0 0; OExtend 0 (mkIter (map f5 [1;2]) 0 false); OToVec 0] in
  clone u32_debug v = Ret w /\ vcap (storage v) <> vcap (storage w) /\
  existsb memory (fst (m_run u32_debug (fin 5) [v] prog)) = false /\ existsb memory (fst (m_run u32_debug (fin 5) [w] prog)) = false.
Proof. cbv zeta. split; [vm_compute; reflexivity|]. split; [vm_compute; discriminate|]. split; vm_compute; reflexivity. Qed.
(** The panicking, stateful code of PropUser.v, on two allocators and on Vec instead of SmallVec: same answers,
    same user state, same blocks; and a vector whose blocks hold values the user's code never gave. *)
Example C59_user_example :
  let a := w_play (over doubling u32_debug) wild 30 wild_client [] ([], 0) in
  let b := w_play (over (stepwise (2 ^ 40)) u32_debug) wild 30 wild_client [] ([], 0) in
  (forall l u o, wild_client l u = Some o -> w_no_append o = true) /\
  length (fst a) = 18%nat /\ existsb memory (fst a) = false /\ existsb memory (fst b) = false /\ fst a = fst b /\
  snd (snd a) = snd (snd b) /\ map (fun v => data (storage v)) (fst (snd a)) = map (fun v => data (storage v)) (fst (snd b)).
Proof.
  cbv zeta. split; [|vm_compute; repeat split; reflexivity].
  intros l u o Ho. unfold wild_client in Ho. apply nth_error_In in Ho. cbn in Ho.
  repeat (destruct Ho as [<-|Ho]; [reflexivity|]). contradiction.
Qed.
(** With C58: from one build to any other of the same block and pointer width -- profile, allocator, growth, container.
    A client none of whose calls panics in a debug build sees the same in a release build on another container. *)
Theorem C59_any_build : forall T (c : cfg) (E : enumlike T) (k1 k2 : container) (k : client T),
  is_small k1 = is_small k2 \/ (forall l o, k l = Some o -> no_append o = true) ->
  forall n, ~ In (MRes RPanic) (m_play (debug (over k1 c)) E n k [] []) ->
  existsb memory (m_play (debug (over k1 c)) E n k [] []) = false -> existsb memory (m_play (release (over k2 c)) E n k [] []) = false ->
  m_play (release (over k2 c)) E n k [] [] = m_play (debug (over k1 c)) E n k [] [].
Proof.
  intros T c E k1 k2 k Hk n Hp H1 H2. rewrite <- (C58_clients T (over k1 c) E k n [] [] Hp) in H1 |- *.
  destruct (C59_clients T (release c) E k1 k2 k Hk n [] [] [] (Forall2_nil _)) as (l & r & r' & E1 & E2 & D).
  change (release (over k1 c)) with (over k1 (release c)) in *. change (release (over k2 c)) with (over k2 (release c)) in *.
  rewrite E1 in *. rewrite E2 in *. rewrite existsb_app in H1, H2. apply orb_false_iff in H1 as [_ H1], H2 as [_ H2].
  destruct D as [[-> ->]|(x & Hx & [-> | ->])]; [reflexivity| |]; cbn in H1, H2; rewrite Hx in *; discriminate.
Qed.
Example C59_any_build_example :
  let k : client (Fin 5) := fun seen => nth_error [OFromSlice (map f5 [1;2;3;4;0;1;2;3;4;0;1]); OInsert 0 3 (f5 1); OResize 0 30 (f5 2); OTruncate 0 25; OShrink 0; OToVec 0; OHash 0] (length seen) in
  let d := m_play (debug (over doubling u32_debug)) (fin 5) 20 k [] [] in let r := m_play (release (over (stepwise (2 ^ 40)) u32_debug)) (fin 5) 20 k [] [] in
  (forall l o, k l = Some o -> no_append o = true) /\ length d = 7%nat /\ ~ In (MRes RPanic) d /\ existsb memory d = false /\ existsb memory r = false.
Proof.
  cbv zeta. split; [|split; [vm_compute; reflexivity|split; [vm_compute; intuition discriminate|split; vm_compute; reflexivity]]].
  intros l o Ho. apply nth_error_In in Ho. cbn [In] in Ho. repeat (destruct Ho as [<-|Ho]; [reflexivity|]). contradiction.
Qed.
