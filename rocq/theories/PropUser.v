(** PropUser.v -- C54: arbitrary user code (EnumLike methods, Clone, closures, iterators, hashers). *)
From Verif Require Import UserSame UserTruth3 PropClient.
Open Scope N_scope.

(** ** C54 *)
(** Whatever the user's safe code does -- to_discr and from_discr that panic, change their mind, keep state
    or answer any usize, closures, iterators and hashers that panic half way, a size_hint that lies -- no client that
    catches the panics and goes on with the same vectors ever runs into undefined behaviour, and the vectors it
    holds stay valid. *)
Theorem C54_memory_safety : forall U T (c : cfg) (X : usercode U T),
  cfg_ok c -> roomy c -> compiles c (shape X) = true -> sane_user X ->
  forall k, tame_wclient c X k ->
  forall n seen vs u, Forall (valid c (shape X)) vs ->
  let '(results, (vs', _)) := w_play c X n k seen (vs, u) in
  ~ In MUB results /\ (~ In MAbort results -> Forall (valid c (shape X)) vs').
Proof.
  intros U T c X Hc Hr Hcomp [H1 [H2 H3]] k Hk n seen vs u Hv.
  pose proof (w_play_valid Hc Hcomp (roomy_isize Hc Hcomp Hr) H1 H2 H3 Hr n Hk seen (s := (vs, u)) Hv) as G.
  destruct (w_play c X n k seen (vs, u)) as [rs [vs' u']]. exact G.
Qed.

(** The model with user code and the model of EnumVec.v are the same program: with a pure implementation E
    each call does what the same call of EnumVec.v does, in every state, valid or not. *)
Theorem C54_same : forall U T (c : cfg) (E : enumlike T) (s : ev * U), let X := pure_user E in
  (forall i, w_get c X i s = on_fst (reads (get c E i)) s) /\
  (forall i x, w_set c X i x s = on_fst (EnumVec.set c E i x) s) /\
  (forall x, w_push c X x s = on_fst (push c E x) s) /\
  (w_pop c X s = on_fst (pop c E) s) /\
  (forall i x, w_insert c X i x s = on_fst (EnumVec.insert c E i x) s) /\
  (forall i, w_remove c X i s = on_fst (remove c E i) s) /\
  (forall i, w_swap_remove c X i s = on_fst (swap_remove c E i) s) /\
  (forall n x, w_resize c X n x s = on_fst (resize c E n x) s) /\
  (forall x n, w_extend_with_value c X x n s = on_fst (extend_with_value c E x n) s) /\
  (forall it fuel, (length (items it) < fuel)%nat ->
     w_extend c X (list_next (ends_in_panic it)) fuel (ret (lower it)) (items it) s = on_fst (extend c E it) s) /\
  (forall x, w_any c X x s = on_fst (reads (any c E x)) s) /\
  (forall x, w_all c X x s = on_fst (reads (all c E x)) s) /\
  (w_to_vec c X s = on_fst (reads (to_vec c E)) s).
Proof.
  intros U T c E s X. unfold X.
  exact (conj (fun i => same_get i s) (conj (fun i x => same_set i x s) (conj (fun x => same_push x s) (conj (same_pop s)
    (conj (fun i x => same_insert i x s) (conj (fun i => same_remove i s) (conj (fun i => same_swap_remove i s)
    (conj (fun n x => same_resize x n s) (conj (fun x n => same_with_value x n s)
    (conj (fun it fuel Hf => same_extend s Hf) (conj (fun x => same_any x s) (conj (fun x => same_all x s) (same_to_vec s))))))))))))).
Qed.
Theorem C54_same_closures : forall St T (c : cfg) (E : enumlike T) (v : ev) (st : St),
  (forall f, leaves (w_retain c (pure_user E) (closure f) (v, st)) = retain c E f st v) /\
  (forall f, leaves (w_for_each c (pure_user E) (closure f) (v, st)) = for_each c E f st v).
Proof. intros. split; intros; [apply same_retain|apply same_for_each]. Qed.
Theorem C54_same_hash : forall T (c : cfg) (E : enumlike T) v hs, hash c E v = Ret hs ->
  forall l, w_hash c (pure_user E) feed (v, l) = (Ret tt, (v, l ++ hs)).
Proof. intros T c E v hs H l. exact (same_hash_loop l H). Qed.

(** Wild code: to_discr counts its calls, panics on every fifth and answers large numbers; from_discr panics on every
    seventh and invents values; the iterator promises three items, gives two and then panics. *)
Definition wild : usercode N N := mkUser 4
  (fun x u => if u mod 5 =? 4 then (Panic PUser, u + 1) else (Ret (x * 1000003 + u), u + 1))
  (fun d u => if u mod 7 =? 6 then (Panic PUser, u + 1) else (Ret (d + u), u + 1))
  (fun x u => (Ret (x + u), u + 3)).
Definition wild_client : wclient N N := fun seen _ =>
  nth_error [WFromVec [1; 2; 3]; WPush 0 9; WPush 0 8; WRead 0 3; WInsert 0 1 7; WRemove 0 0; WSwapRemove 0 0;
             WExtend 0 3 (ret 3) (fun u => if u mod 3 =? 0 then (Panic PUser, u + 1) else (Ret (Some u), u + 1));
             WRetain 0 (fun x u => if u mod 4 =? 0 then (Panic PUser, u + 1) else (Ret (N.even x), u + 1));
             WForEach 0 (fun x u => (Ret (u * x), u + 2)); WResize 0 90 5; WAny 0 3; WPop 0; WEach 0 (fun _ u => (Ret tt, u));
             WHash 0 (fun d u => (Ret tt, u + d)); WPlain (OClear 0); WPush 0 1; WPlain (OLen 0)] (length seen).
Ltac wild := repeat (match goal with |- context [if ?b then _ else _] => destruct b end); discriminate || reflexivity || exact Logic.I.
Lemma wild_tame : tame_wclient u32_debug wild wild_client.
Proof.
  intros seen u o Ho. unfold wild_client in Ho. apply nth_error_In in Ho. cbn in Ho.
  repeat (destruct Ho as [<-|Ho]; [cbn [tame_wop]; first [exact Logic.I | reflexivity | (intros ? ?; cbn; wild) | (split; [|split]; intros ?; cbn; wild)]|]).
  contradiction.
Qed.
Lemma wild_sane : sane_user wild.
Proof. repeat split; intros x u; cbn; repeat (match goal with |- context [if ?b then _ else _] => destruct b end); discriminate. Qed.
Example C54_example : cfg_ok u32_debug /\ roomy u32_debug /\ compiles u32_debug (shape wild) = true /\ sane_user wild /\
  tame_wclient u32_debug wild wild_client /\
  fst (w_play u32_debug wild 30 wild_client [] ([], 0)) =
    [MRes RUnit; MRes RUnit; MRes RPanic; MRes (ROpt (Some 7)); MRes RUnit; MRes (RVal 11); MRes (RVal 9);
     MRes RPanic; MRes RPanic; MRes RPanic; MRes RPanic; MRes RPanic; MRes (ROpt (Some 54)); MRes RPanic;
     MRes RUnit; MRes RUnit; MRes RPanic; MRes (RNum 1)].
Proof.
  split; [apply u32_debug_ok|]. split; [vm_compute; reflexivity|]. split; [reflexivity|]. split; [exact wild_sane|].
  split; [exact wild_tame|]. vm_compute. reflexivity.
Qed.

(** ** C55 *)
(** Truthful code: it may panic at any call and keep any state, but the answers it gives obey the trait's
    contract.  Every call does then what the same call of EnumVec.v does (C02-C08, C11-C20 say what that is), unless
    user code panics.  These leave the vector exactly as it was: *)
Theorem C55_follows : forall U T (c : cfg) (E : enumlike T) (X : usercode U T), truthful E X -> sane_user X ->
  forall (v : ev) (u : U), let unchanged k v' := users X k /\ v' = v in
  (forall i, follows (w_get c X i (v, u)) (get c E i v, v) unchanged) /\
  (forall i x, follows (w_set c X i x (v, u)) (EnumVec.set c E i x v) unchanged) /\
  follows (w_pop c X (v, u)) (pop c E v) unchanged /\
  (forall i, follows (w_remove c X i (v, u)) (remove c E i v) unchanged) /\
  (forall x, follows (w_any c X x (v, u)) (any c E x v, v) unchanged) /\
  (forall x, follows (w_all c X x (v, u)) (all c E x v, v) unchanged) /\
  (forall r calls, follows (w_iter c X r calls (v, u)) (m_iter c E v r calls, v) unchanged) /\
  (forall f, (forall x, sane (f x)) -> follows (w_each c X f (v, u)) (to_vec c E v, v) (fun _ v' => v' = v)).
Proof.
  intros U T c E X Ht Hsane v u unchanged.
  assert (G : forall A (r : outcome A * (ev * U)) r0, follows r r0 (stays (X := X) v) -> follows r r0 unchanged).
  { intros A r r0 H. eapply fo_mono; [exact Ht|exact Hsane|exact H|]. intros k v' [H1 H2]. split; assumption. }
  exact (conj (fun i => G _ _ _ (fo_get (c := c) Ht Hsane i (v, u))) (conj (fun i x => G _ _ _ (fo_set (c := c) Ht Hsane i x (v, u)))
    (conj (G _ _ _ (fo_pop (c := c) Ht Hsane (v, u))) (conj (fun i => G _ _ _ (fo_remove (c := c) Ht Hsane i (v, u)))
    (conj (fun x => G _ _ _ (fo_any (c := c) Ht Hsane x (v, u))) (conj (fun x => G _ _ _ (fo_all (c := c) Ht Hsane x (v, u)))
    (conj (fun r calls => G _ _ _ (fo_iter (c := c) Ht Hsane calls r (v, u))) (fun f Hf => fo_each (c := c) Ht Hsane (v, u) Hf)))))))).
Qed.
(** swap_remove swaps first and reads then: a panic leaves the elements swapped, none lost. *)
Theorem C55_swap_remove : forall U T (c : cfg) (E : enumlike T) (X : usercode U T), setting c E -> truthful E X -> sane_user X ->
  forall v u l i, holds c E v l ->
  follows (w_swap_remove c X i (v, u)) (swap_remove c E i v)
    (fun k v' => users X k /\ i < lenN l /\ holds c E v' (l_swap l i (lenN l - 1))).
Proof. intros U T c E X Hs Ht Hsane v u l i H. exact (t_swap_remove_left Hs Ht Hsane i (s := (v, u)) eq_refl H). Qed.
(** retain: the log holds the items the closure was asked about, in order, with its answers.  A panic of the closure leaves
    the kept items followed by the items from there on; one of to_discr or from_discr may come before the last kept item is moved. *)
Theorem C55_retain : forall U T (c : cfg) (E : enumlike T) (X : usercode U T), setting c E -> truthful E X -> sane_user X ->
  forall (log : U -> list (T * bool)) f, quiet_user log X -> (forall x, sane (f x)) -> (forall x, records log (f x) (fun b => [(x, b)])) ->
  forall v u l, holds c E v l ->
  result (w_retain c X f (v, u))
    (fun _ s' => exists bs, length bs = length l /\ log (snd s') = log u ++ combine l bs /\ holds c E (fst s') (kept (combine l bs)))
    (fun k s' => exists bs K, (length bs <= length l)%nat /\ log (snd s') = log u ++ combine l bs /\
       nearly K (kept (combine l bs)) /\ (K <> kept (combine l bs) -> users X k) /\
       holds c E (fst s') (K ++ skipn (length K) l)).
Proof. intros U T c E X Hs Ht Hsane log f Hq Hf Hr v u l H. exact (t_retain Hs Ht Hsane Hq Hf Hr u H). Qed.
(** iter_mut().for_each: a panic leaves the new values so far, and the old ones from there on. *)
Theorem C55_for_each : forall U T (c : cfg) (E : enumlike T) (X : usercode U T), setting c E -> truthful E X -> sane_user X ->
  forall (log : U -> list (T * T)) f, quiet_user log X -> (forall x, sane (f x)) -> (forall x, records log (f x) (fun y => [(x, y)])) ->
  forall v u l, holds c E v l ->
  result (w_for_each c X f (v, u))
    (fun _ s' => exists ys, length ys = length l /\ log (snd s') = log u ++ combine l ys /\ holds c E (fst s') ys)
    (fun k s' => exists ys K, (length ys <= length l)%nat /\ log (snd s') = log u ++ combine l ys /\
       nearly K ys /\ (K <> ys -> users X k) /\ holds c E (fst s') (K ++ skipn (length K) l)).
Proof. intros U T c E X Hs Ht Hsane log f Hq Hf Hr v u l H. exact (t_for_each Hs Ht Hsane Hq Hf Hr u H). Qed.
(** The constructors build the list they are given or panic. *)
Theorem C55_constructors : forall U T (c : cfg) (E : enumlike T) (X : usercode U T), setting c E -> truthful E X -> sane_user X -> forall u : U,
  (forall x n, n <= usize_max c ->
     builds (fst (w_build c (w_extend_with_value c X x n) u)) (fun v => holds c E v (repeat x (N.to_nat n))) (fun _ => True)) /\
  (forall l, lenN l <= usize_max c -> reservable c E 0 (lenN l) ->
     builds (fst (w_build c (w_extend c X (cloned_next X) 1 (ret (lenN l)) l) u)) (fun v => holds c E v l) (fun _ => True)) /\
  (forall l, lenN l <= usize_max c -> reservable c E 0 (lenN l) ->
     builds (fst (w_build c (w_extend c X (@vec_next U T) 1 (ret (lenN l)) l) u)) (fun v => holds c E v l) (fun _ => True)).
Proof.
  intros U T c E X Hs Ht Hsane u.
  exact (conj (fun x n Hn => t_from_elem Hs Ht Hsane x u Hn) (conj (fun l H1 H2 => t_from_slice Hs Ht Hsane u H1 H2) (fun l H1 H2 => t_from_vec Hs Ht Hsane u H1 H2))).
Qed.
(** Missing below: after a panic of user code Vec has exactly l (push, insert), l and the items taken (extend),
    l and copies of x (resize).  EnumVec has these elements, but may have others after them. *)
Theorem C55_push_partial : forall U T (c : cfg) (E : enumlike T) (X : usercode U T), setting c E -> truthful E X -> sane_user X ->
  forall v u l x, holds c E v l ->
  follows (w_push c X x (v, u)) (push c E x v) (fun k v' => users X k /\ begins c E v' l /\ len v' = lenN l + 1).
Proof. intros U T c E X Hs Ht Hsane v u l x H. exact (t_push_left Hs Ht Hsane x (s := (v, u)) eq_refl H). Qed.
Theorem C55_insert_partial : forall U T (c : cfg) (E : enumlike T) (X : usercode U T), setting c E -> truthful E X -> sane_user X ->
  forall v u l i x, holds c E v l ->
  follows (w_insert c X i x (v, u)) (EnumVec.insert c E i x v) (fun k v' => users X k /\ begins c E v' l /\ len v' = lenN l + 1).
Proof. intros U T c E X Hs Ht Hsane v u l i x H. exact (t_insert_left Hs Ht Hsane i x (s := (v, u)) eq_refl H). Qed.
(** the log holds the items the iterator has given *)
Theorem C55_extend_partial : forall U T (c : cfg) (E : enumlike T) (X : usercode U T), setting c E -> truthful E X -> sane_user X ->
  forall I (next : I -> M U (option T * I)) (log : U -> list T) hint,
  quiet_user log X -> (forall it, sane (next it)) ->
  (forall it, records log (next it) (fun r => match fst r with Some x => [x] | None => [] end)) ->
  sane hint -> quiet log hint -> hints c X hint ->
  forall fuel it v u l, holds c E v l ->
  result (w_extend c X next fuel hint it (v, u))
    (fun _ s' => exists xs, log (snd s') = log u ++ xs /\ holds c E (fst s') (l ++ xs) /\ forall n, fst (hint u) = Ret n -> n <= lenN xs)
    (fun k s' => exists xs ys, log (snd s') = log u ++ xs /\ nearly ys xs /\ (ys <> xs -> users X k \/ no_room k) /\
       begins c E (fst s') (l ++ ys) /\ (forall n, fst (hint u) = Ret n -> len (fst s') <= lenN l + N.max n (lenN xs)) /\
       ((forall n, fst (hint u) <> Ret n) -> fst s' = v)).
Proof.
  intros U T c E X Hs Ht Hsane I next log hint Hq Hn Hr H1 H2 H3 fuel it v u l H. exact (t_extend Hs Ht Hsane Hq Hn Hr fuel it u H1 H2 H3 H).
Qed.
Theorem C55_resize_partial : forall U T (c : cfg) (E : enumlike T) (X : usercode U T), setting c E -> truthful E X -> sane_user X ->
  forall v u l n x, holds c E v l -> n <= usize_max c ->
  result (w_resize c X n x (v, u)) (fun _ s' => holds c E (fst s') (l_resize l n x))
    (fun k s' => lenN l < n /\ begins c E (fst s') l /\ len (fst s') <= n).
Proof. intros U T c E X Hs Ht Hsane v u l n x H Hn. exact (t_resize Hs Ht Hsane u x H Hn). Qed.

(** Truthful code over Fin 4 that may panic: its state is a budget of calls and a log; without budget it panics. *)
Definition spend {L A} (a : A) : M (N * list L) A := fun s => if fst s =? 0 then (Panic PUser, s) else (Ret a, (fst s - 1, snd s)).
Definition shy {L} : usercode (N * list L) (Fin 4) := mkUser 4
  (fun x => spend (to_d (fin 4) x))
  (fun d => match from_d (fin 4) d with Some x => spend x | None => lift (Panic PUser) end)
  (fun x => spend x).
Definition noting {L A} (m : M (N * list L) A) (out : A -> list L) : M (N * list L) A := fun s =>
  match m s with (Ret a, s') => (Ret a, (fst s', snd s' ++ out a)) | r => r end.
Lemma shy_truthful L : truthful (fin 4) (@shy L) /\ sane_user (@shy L) /\ quiet_user snd (@shy L).
Proof.
  assert (Hsp : forall A (a : A) (s : N * list L), fst (spend a s) <> UB /\ (forall b s', spend a s = (Ret b, s') -> b = a) /\ snd (snd (spend a s)) = snd s).
  { intros A a s. unfold spend. destruct (fst s =? 0); cbn; (split; [discriminate|]); (split; [|reflexivity]); intros b s' Hb; [discriminate|injection Hb as <- _; reflexivity]. }
  assert (Hq : forall A (a : A) (s : N * list L), snd (snd (spend a s)) = snd s ++ match fst (spend a s) with Ret _ => [] | _ => [] end).
  { intros A a s. rewrite (proj2 (proj2 (Hsp A a s))). destruct (fst (spend a s)); rewrite app_nil_r; reflexivity. }
  split; [|split].
  - split; [reflexivity|]. split; [intros x s d s' H; exact (proj1 (proj2 (Hsp _ _ _)) _ _ H)|].
    split; [|intros x s y s' H; exact (proj1 (proj2 (Hsp _ _ _)) _ _ H)].
    intros d s x s' H. unfold shy, u_from in H. destruct (from_d (fin 4) d) as [y|]; [|discriminate].
    rewrite (proj1 (proj2 (Hsp _ _ _)) _ _ H). reflexivity.
  - split; [intros x s; apply (Hsp _ _ s)|]. split; [|intros x s; apply (Hsp _ _ s)].
    intros d s. unfold shy, u_from. destruct (from_d (fin 4) d); [apply (Hsp _ _ s)|discriminate].
  - split; [intros x s; apply Hq|]. split; [|intros x s; apply Hq].
    intros d s. unfold shy, u_from. destruct (from_d (fin 4) d); [apply Hq|]. cbn. rewrite app_nil_r. reflexivity.
Qed.
Lemma noting_records L A (a : A) (out : A -> list L) : sane (noting (spend a) out) /\ records snd (noting (spend a) out) out.
Proof.
  split; intros s; unfold noting, spend; destruct (fst s =? 0); cbn; try discriminate; try reflexivity. rewrite app_nil_r. reflexivity.
Qed.
Definition keep_even : Fin 4 -> M (N * list (Fin 4 * bool)) bool := fun x => noting (spend (N.even (to_d (fin 4) x))) (fun b => [(x, b)]).
Definition next_up : Fin 4 -> M (N * list (Fin 4)) (Fin 4) := fun x => spend (f4 ((to_d (fin 4) x + 1) mod 4)).
(** some runs: with budget 4 retain panics in to_discr when moving the first 2; with 8 in the closure; with 50 it returns. *)
Definition v5 : ev := match from_slice u32_debug (fin 4) [f4 1; f4 2; f4 3; f4 2; f4 0] with Ret v => v | _ => ev_new u32_debug end.
Definition dump (v : ev) : list N := match to_vec u32_debug (fin 4) v with Ret l => map (to_d (fin 4)) l | _ => [] end.
Lemma v5_holds : holds u32_debug (fin 4) v5 [f4 1; f4 2; f4 3; f4 2; f4 0].
Proof.
  assert (Hs : setting u32_debug (fin 4)) by (apply fin_setting; [apply u32_debug_ok|reflexivity|discriminate]).
  unfold v5. pose proof (from_slice_ok Hs (xs := [f4 1; f4 2; f4 3; f4 2; f4 0])) as G.
  assert (Hr : reservable u32_debug (fin 4) 0 (lenN [f4 1; f4 2; f4 3; f4 2; f4 0])) by (left; vm_compute; discriminate).
  specialize (G Hr). assert (Hl : lenN [f4 1; f4 2; f4 3; f4 2; f4 0] <= usize_max u32_debug) by (vm_compute; discriminate). specialize (G Hl).
  destruct (from_slice u32_debug (fin 4) [f4 1; f4 2; f4 3; f4 2; f4 0]) as [v|k| |] eqn:Hv; [exact G|vm_compute in Hv; discriminate..].
Qed.
Example C55_example :
  setting u32_debug (fin 4) /\ truthful (fin 4) (@shy (Fin 4 * bool)) /\ sane_user (@shy (Fin 4 * bool)) /\ quiet_user snd (@shy (Fin 4 * bool)) /\
  (forall x, sane (keep_even x) /\ records snd (keep_even x) (fun b => [(x, b)])) /\ holds u32_debug (fin 4) v5 [f4 1; f4 2; f4 3; f4 2; f4 0] /\
  (let '(r, (v, (_, log))) := w_retain u32_debug shy keep_even (v5, (4, [])) in
     r = Panic PUser /\ dump v = [1; 2; 3; 2; 0] /\ map snd log = [false; true] /\ kept log = [f4 2]) /\
  (let '(r, (v, (_, log))) := w_retain u32_debug shy keep_even (v5, (11, [])) in
     r = Panic PUser /\ dump v = [2; 2; 3; 2; 0] /\ map snd log = [false; true; false; true]) /\
  (let '(r, (v, (_, log))) := w_retain u32_debug shy keep_even (v5, (50, [])) in r = Ret tt /\ dump v = [2; 2; 0]) /\
  (let '(r, (v, _)) := w_swap_remove u32_debug (@shy N) 1 (v5, (0, [])) in r = Panic PUser /\ dump v = [1; 0; 3; 2; 2]) /\
  (let '(r, (v, _)) := w_remove u32_debug (@shy N) 1 (v5, (0, [])) in r = Panic PUser /\ v = v5).
Proof.
  split; [apply fin_setting; [apply u32_debug_ok|reflexivity|discriminate]|].
  split; [apply shy_truthful|]. split; [apply shy_truthful|]. split; [apply shy_truthful|].
  split; [intros x; apply noting_records|]. split; [exact v5_holds|].
  split; [vm_compute; repeat split|]. split; [vm_compute; repeat split|]. split; [vm_compute; repeat split|].
  split; vm_compute; repeat split.
Qed.

(** ** C55 is false of push, insert, extend and resize *)
(** push counts the new element before it calls to_discr (mod.rs:354-358).  If to_discr panics, the vector has one element
    more than before, whose value is what the storage has there: 0, here the element popped before, or bits that are no
    number of a value. *)
Definition gone : ev := snd (pop u32_debug (fin 4) (snd (pop u32_debug (fin 4) v5))).
Lemma gone_holds : holds u32_debug (fin 4) gone [f4 1; f4 2; f4 3].
Proof.
  assert (Hs : setting u32_debug (fin 4)) by (apply fin_setting; [apply u32_debug_ok|reflexivity|discriminate]).
  destruct (pop_some Hs (l := [f4 1; f4 2; f4 3; f4 2]) (x := f4 0) v5_holds) as [v1 [H1 G1]].
  destruct (pop_some Hs (l := [f4 1; f4 2; f4 3]) (x := f4 2) G1) as [v2 [H2 G2]]. unfold gone. rewrite H1. cbn [snd]. rewrite H2. exact G2.
Qed.
Theorem C55_refuted : exists (v : ev) (l : list (Fin 4)) (X : usercode (N * list (Fin 4)) (Fin 4)) (u : N * list (Fin 4)),
  setting u32_debug (fin 4) /\ holds u32_debug (fin 4) v l /\ truthful (fin 4) X /\ sane_user X /\
  (forall x, let '(r, (v', _)) := w_push u32_debug X x (v, u) in r = Panic PUser /\ holds u32_debug (fin 4) v' (l ++ [f4 2])) /\
  (forall i x, let '(r, (v', _)) := w_insert u32_debug X i x (v, u) in r = Panic PUser /\ holds u32_debug (fin 4) v' (l ++ [f4 2])) /\
  (forall x y z, let '(r, (v', _)) := w_extend u32_debug X (@vec_next _ _) 1 (ret 3) [x; y; z] (v, u) in r = Panic PUser /\ holds u32_debug (fin 4) v' (l ++ [f4 2; f4 0; f4 0])) /\
  (forall x, let '(r, (v', _)) := w_resize u32_debug X 6 x (v, u) in r = Panic PUser /\ holds u32_debug (fin 4) v' (l ++ [f4 2; f4 0; f4 0])).
Proof.
  assert (Hs : setting u32_debug (fin 4)) by (apply fin_setting; [apply u32_debug_ok|reflexivity|discriminate]).
  exists gone, [f4 1; f4 2; f4 3], shy, (0, []). split; [exact Hs|]. split; [exact gone_holds|].
  split; [apply shy_truthful|]. split; [apply shy_truthful|].
  assert (Hh : forall v l, validb u32_debug (fin 4) v = true -> hash u32_debug (fin 4) v = Ret (map (to_d (fin 4)) l) -> holds u32_debug (fin 4) v l).
  { intros v l H1 H2. apply (holds_hash Hs); [apply validb_valid; exact H1|exact H2]. }
  set (v6 := snd (set_len 6 (snd (reserve u32_debug (fin 4) 3 gone)))).
  assert (K1 : holds u32_debug (fin 4) (mkEv (storage gone) 4) ([f4 1; f4 2; f4 3] ++ [f4 2])) by (apply Hh; vm_compute; reflexivity).
  assert (K2 : holds u32_debug (fin 4) v6 ([f4 1; f4 2; f4 3] ++ [f4 2; f4 0; f4 0])) by (apply Hh; vm_compute; reflexivity).
  split; [|split; [|split]].
  - intros x. assert (G : w_push u32_debug (@shy (Fin 4)) x (gone, (0, @nil (Fin 4))) = (Panic PUser, (mkEv (storage gone) 4, (0, [])))) by (vm_compute; reflexivity).
    rewrite G. split; [reflexivity|exact K1].
  - intros i x. assert (G : w_insert u32_debug (@shy (Fin 4)) i x (gone, (0, @nil (Fin 4))) = (Panic PUser, (mkEv (storage gone) 4, (0, [])))) by (vm_compute; reflexivity).
    rewrite G. split; [reflexivity|exact K1].
  - intros x y z. assert (G : w_extend u32_debug (@shy (Fin 4)) (@vec_next _ _) 1 (ret 3) [x; y; z] (gone, (0, @nil (Fin 4))) = (Panic PUser, (v6, (0, [])))) by (vm_compute; reflexivity).
    rewrite G. split; [reflexivity|exact K2].
  - intros x. assert (G : w_resize u32_debug (@shy (Fin 4)) 6 x (gone, (0, @nil (Fin 4))) = (Panic PUser, (v6, (0, [])))) by (vm_compute; reflexivity).
    rewrite G. split; [reflexivity|exact K2].
Qed.
