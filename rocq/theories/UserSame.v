(** UserSame.v -- with pure user code the functions of User.v are those of EnumVec.v. *)
From Verif Require Export UserFacts.
From Coq Require Import ZifyBool ZifyNat ZifyN.
Open Scope N_scope.
Set Implicit Arguments.
Unset Strict Implicit.
Set Default Proof Using "Type*".

(** a user iterator that gives the items of a list, and then ends or panics *)
Definition list_next {U T} (pan : bool) (l : list T) : M U (option T * list T) :=
  match l with [] => if pan then lift (Panic PUser) else ret (None, []) | x :: l' => ret (Some x, l') end.
(** a closure with state, None = it panics *)
Definition closure {St A B} (f : St -> A -> option (B * St)) (x : A) : M St B := fun st =>
  match f st x with None => (Panic PUser, st) | Some (b, st') => (Ret b, st') end.
(** what such a call leaves: the closure's state is the result *)
Definition leaves {St A} (r : outcome A * (ev * St)) : outcome St * ev :=
  let '(o, (v, st)) := r in
  (match o with Ret _ => Ret st | Panic k => Panic k | Abort => Abort | UB => UB end, v).

Lemma fst_bind S R A B (m : M S A) (f : A -> M S B) (s : S * R) : on_fst (bind m f) s = bind (on_fst m) (fun a => on_fst (f a)) s.
Proof. destruct s as [a b]. unfold on_fst, bind. cbn. destruct (m a) as [[x|k| |] s']; cbn; reflexivity. Qed.
Lemma bind_cong S A B (m m' : M S A) (f g : A -> M S B) s : m s = m' s -> (forall a s', f a s' = g a s') -> bind m f s = bind m' g s.
Proof. intros H1 H. unfold bind. rewrite H1. destruct (m' s) as [[a|k| |] s']; auto. Qed.
Lemma fst_reads S R A (g : S -> outcome A) (s : S * R) : on_fst (reads g) s = reads (fun s => g (fst s)) s.
Proof. destruct s. unfold on_fst, reads. cbn. reflexivity. Qed.
Lemma fst_lift S R A (o : outcome A) (s : S * R) : on_fst (lift o) s = lift o s.
Proof. destruct s. reflexivity. Qed.
Lemma fst_ret S R A (a : A) (s : S * R) : on_fst (ret a) s = ret a s.
Proof. destruct s. reflexivity. Qed.

Section Same.
  Context {U T : Type} {c : cfg} {E : enumlike T}.
  Local Notation X := (@pure_user U T E).
  Local Notation MW := (M (ev * U)).

  Lemma user_lift A (o : outcome A) (s : ev * U) : user (lift o) s = lift o s.
  Proof. destruct s. reflexivity. Qed.
  Lemma user_ret A (a : A) (s : ev * U) : user (ret a) s = ret a s.
  Proof. destruct s. reflexivity. Qed.
  Lemma ret_bind S A B (a : A) (f : A -> M S B) s : bind (ret a) f s = f a s.
  Proof. reflexivity. Qed.
  Lemma user_pure A B (a : A) (f : A -> MW B) s : bind (user (ret a)) f s = f a s.
  Proof. destruct s. reflexivity. Qed.

  Lemma same_get i s : w_get c X i s = on_fst (reads (get c E i)) s.
  Proof.
    destruct s as [v u]. unfold w_get, self_get, get, on_fst, bind, reads. cbn [fst snd].
    change (get_raw c (shape X) i v) with (get_raw c E i v). destruct (get_raw c E i v) as [[d|]|k| |]; cbn; try reflexivity.
    unfold user, on_snd. cbn. unfold lift. destruct (from_discr E d); reflexivity.
  Qed.
  Lemma same_elem i s : w_elem c X i s = on_fst (reads (fun v => let! r := get c E i v in unwrap r)) s.
  Proof.
    unfold w_elem, bind. rewrite same_get. destruct s as [v u]. unfold on_fst, reads, lift. cbn [fst snd].
    destruct (get c E i v) as [r|k| |]; reflexivity.
  Qed.
  Lemma same_set i x s : w_set c X i x s = on_fst (EnumVec.set c E i x) s.
  Proof. unfold w_set. cbn [u_to pure_user]. rewrite user_pure. reflexivity. Qed.
  Lemma same_push x s : w_push c X x s = on_fst (push c E x) s.
  Proof.
    unfold w_push, push. rewrite fst_bind. apply bind_cong; [reflexivity|]. intros _ s1. rewrite fst_bind.
    apply bind_cong; [symmetry; apply fst_reads|]. intros idx s2. rewrite fst_bind. apply bind_cong; [symmetry; apply fst_lift|].
    intros n1 s3. rewrite fst_bind. apply bind_cong; [reflexivity|]. intros _ s4. apply same_set.
  Qed.
  Lemma same_pop s : w_pop c X s = on_fst (pop c E) s.
  Proof.
    destruct s as [v u]. unfold w_pop, pop, on_fst. cbn [fst snd]. destruct (is_empty v); [reflexivity|].
    transitivity (on_fst (i <- reads (fun v => usub c (num v) 1) ;; x <- reads (fun v => let! r := get c E i v in unwrap r) ;;
      n1 <- reads (fun v => usub c (num v) 1) ;; set_len n1 ;;; ret (Some x)) (v, u)).
    - rewrite fst_bind. apply bind_cong; [symmetry; apply fst_reads|]. intros i s1. rewrite fst_bind. apply bind_cong; [apply same_elem|].
      intros x s2. rewrite fst_bind. apply bind_cong; [symmetry; apply fst_reads|]. intros n1 s3. rewrite fst_bind. apply bind_cong; [reflexivity|].
      intros a s4. symmetry. apply fst_ret.
    - reflexivity.
  Qed.
  Lemma same_swap_remove i s : w_swap_remove c X i s = on_fst (swap_remove c E i) s.
  Proof.
    unfold w_swap_remove, swap_remove. rewrite fst_bind. apply bind_cong; [symmetry; apply fst_reads|]. intros last s1.
    rewrite fst_bind. apply bind_cong; [reflexivity|]. intros _ s2. rewrite fst_bind. apply bind_cong; [apply same_pop|].
    intros r s3. symmetry. apply fst_lift.
  Qed.
  Lemma same_insert i x s : w_insert c X i x s = on_fst (EnumVec.insert c E i x) s.
  Proof.
    unfold w_insert, EnumVec.insert. rewrite fst_bind. apply bind_cong; [apply same_push|]. intros _ s1.
    cbn [u_to pure_user]. rewrite user_pure. reflexivity.
  Qed.
  Lemma same_remove i s : w_remove c X i s = on_fst (remove c E i) s.
  Proof.
    unfold w_remove, remove. rewrite fst_bind. apply bind_cong; [apply same_elem|]. intros x s1.
    match goal with |- bind (self ?m) _ _ = _ => transitivity (on_fst (bind m (fun _ => ret x)) s1) end.
    - rewrite fst_bind. apply bind_cong; [reflexivity|]. intros _ s2. symmetry. apply fst_ret.
    - unfold on_fst. match goal with |- (let '(_, _) := ?a in _) = (let '(_, _) := ?b in _) => enough (a = b) as -> by reflexivity end.
      repeat (rewrite bind_assoc; apply bind_ext; intros ? ?). reflexivity.
  Qed.
  Lemma same_any x s : w_any c X x s = on_fst (reads (any c E x)) s.
  Proof.
    destruct s as [v u]. unfold w_any, any, on_fst, reads. cbn [fst snd]. change (block_index c (shape X) (len v)) with (block_index c E (len v)).
    destruct (is_empty v); [reflexivity|]. destruct (block_index c E (len v)) as [lb le]. unfold x_mask.
    change (one_mask c (shape X)) with (one_mask c E). change (BITS (shape X)) with (BITS E). unfold bind, lift.
    destruct (one_mask c E) as [one|k| |]; try reflexivity. cbn [obind]. destruct (shl c one (BITS E - 1)) as [high|k| |]; reflexivity.
  Qed.
  Lemma same_all x s : w_all c X x s = on_fst (reads (all c E x)) s.
  Proof.
    destruct s as [v u]. unfold w_all, all, on_fst, reads. cbn [fst snd]. change (block_index c (shape X) (len v)) with (block_index c E (len v)).
    destruct (is_empty v); [reflexivity|]. destruct (block_index c E (len v)) as [lb le]. unfold x_mask.
    change (one_mask c (shape X)) with (one_mask c E). change (BITS (shape X)) with (BITS E). unfold bind, lift.
    destruct (shr c (bones c) (W c mod BITS E)) as [va|k| |]; try reflexivity. cbn [obind]. destruct (one_mask c E) as [one|k| |]; reflexivity.
  Qed.

  (** extend *)
  Lemma same_known pan n : forall i sl l s,
    w_known c X (list_next pan) n i sl l s = on_fst (extend_known c E n i sl pan l) s.
  Proof.
    induction n as [|n IH]; intros i sl l s; cbn [w_known extend_known]; [symmetry; apply fst_ret|].
    rewrite fst_bind. apply bind_cong; [symmetry; apply fst_lift|]. intros idx s1. destruct l as [|x l]; cbn [list_next].
    - rewrite fst_lift. destruct pan; [destruct s1; reflexivity|]. rewrite user_pure. reflexivity.
    - rewrite user_pure. cbn [fst snd unwrap]. unfold bind at 1, lift at 1. rewrite fst_bind. apply bind_cong; [apply same_set|].
      intros _ s2. apply IH.
  Qed.
  Lemma same_rest pan l : forall fuel s, (length l < fuel)%nat -> w_rest c X (list_next pan) fuel l s = on_fst (extend_rest c E pan l) s.
  Proof.
    induction l as [|x l IH]; intros fuel s Hf; (destruct fuel as [|fuel]; [cbn in Hf; lia|]); cbn [w_rest extend_rest list_next].
    - destruct pan; [destruct s; reflexivity|]. rewrite user_pure. symmetry. apply fst_ret.
    - rewrite user_pure. cbn [fst snd]. rewrite fst_bind. apply bind_cong; [apply same_push|]. intros _ s1. apply IH. cbn in Hf. lia.
  Qed.
  Lemma known_shorter n : forall i sl pan l v l' v', extend_known c E n i sl pan l v = (Ret l', v') -> (length l' <= length l)%nat.
  Proof.
    induction n as [|n IH]; intros i sl pan l v l' v' H; cbn [extend_known] in H; [inversion H; lia|].
    unfold bind at 1, lift at 1 in H. destruct (uadd c sl i) as [idx|k| |]; try discriminate. destruct l as [|x l]; [destruct pan; discriminate|].
    unfold bind in H. destruct (EnumVec.set c E idx x v) as [[u|k| |] v1]; try discriminate. apply IH in H. cbn. lia.
  Qed.
  Lemma same_extend it fuel s : (length (items it) < fuel)%nat ->
    w_extend c X (list_next (ends_in_panic it)) fuel (ret (lower it)) (items it) s = on_fst (extend c E it) s.
  Proof.
    intros Hf. unfold w_extend, extend. rewrite user_pure.
    rewrite fst_bind. apply bind_cong; [symmetry; apply fst_reads|]. intros sl s1. rewrite fst_bind. apply bind_cong; [reflexivity|]. intros _ s2.
    rewrite fst_bind. apply bind_cong; [symmetry; apply fst_reads|]. intros n s3. rewrite fst_bind. apply bind_cong; [reflexivity|]. intros _ s4.
    rewrite fst_bind. unfold bind. rewrite same_known. unfold on_fst. destruct s4 as [v u]. cbn [fst snd].
    destruct (extend_known c E (N.to_nat (lower it)) 0 sl (ends_in_panic it) (items it) v) as [[l'|k| |] v'] eqn:Hk; try reflexivity.
    apply known_shorter in Hk. rewrite same_rest by lia. reflexivity.
  Qed.
  (** repeat(x).take(n) *)
  Lemma same_take x k : forall i sl s,
    w_known c X (take_next X x) k i sl (N.of_nat k) s =
      (_ <- on_fst (extend_known c E k i sl false (repeat x k)) ;; ret 0) s.
  Proof.
    induction k as [|k IH]; intros i sl s; cbn [w_known extend_known repeat].
    - destruct s; reflexivity.
    - transitivity ((_ <- (idx <- on_fst (lift (uadd c sl i)) ;; (on_fst (EnumVec.set c E idx x) ;;; on_fst (extend_known c E k (i + 1) sl false (repeat x k)))) ;; ret 0) s).
      2:{ apply bind_cong; [|reflexivity]. rewrite fst_bind. apply bind_cong; [reflexivity|]. intros idx s1. symmetry. apply fst_bind. }
      rewrite bind_assoc. apply bind_cong; [symmetry; apply fst_lift|]. intros idx s1. rewrite bind_assoc.
      unfold take_next at 1. replace (N.of_nat (S k) =? 0) with false by lia. cbn [u_clone pure_user].
      replace (N.of_nat (S k) - 1) with (N.of_nat k) by lia.
      change (user (y <- ret x ;; ret (Some y, N.of_nat k))) with (@user U (option T * N) (ret (Some x, N.of_nat k))). rewrite user_pure.
      cbn [fst snd unwrap]. unfold bind at 1, lift at 1. apply bind_cong; [apply same_set|]. intros _ s2. apply IH.
  Qed.
  Lemma extend_known_all x k : forall i sl v l' v', extend_known c E k i sl false (repeat x k) v = (Ret l', v') -> l' = [].
  Proof.
    induction k as [|k IH]; intros i sl v l' v' H; cbn [extend_known repeat] in H; [inversion H; reflexivity|].
    unfold bind at 1, lift at 1 in H. destruct (uadd c sl i) as [idx|q| |]; try discriminate.
    unfold bind in H. destruct (EnumVec.set c E idx x v) as [[u|q| |] v1]; try discriminate. eauto.
  Qed.
  Lemma same_repeat x n s : w_repeat c X x n s = on_fst (extend c E (exact_iter (repeat x (N.to_nat n)))) s.
  Proof.
    unfold w_repeat, w_extend, extend, exact_iter. cbn [lower items ends_in_panic]. rewrite user_pure.
    replace (lenN (repeat x (N.to_nat n))) with n by (rewrite lenN_repeat; lia).
    rewrite fst_bind. apply bind_cong; [symmetry; apply fst_reads|]. intros sl s1. rewrite fst_bind. apply bind_cong; [reflexivity|]. intros _ s2.
    rewrite fst_bind. apply bind_cong; [symmetry; apply fst_reads|]. intros m s3. rewrite fst_bind. apply bind_cong; [reflexivity|]. intros _ s4.
    pose proof (same_take x (N.to_nat n) 0 sl s4) as G. rewrite N2Nat.id in G. unfold bind at 1. rewrite G. rewrite fst_bind. unfold bind. unfold on_fst. destruct s4 as [v u]. cbn [fst snd].
    destruct (extend_known c E (N.to_nat n) 0 sl false (repeat x (N.to_nat n)) v) as [[l'|k| |] v'] eqn:Hk; try reflexivity.
    apply extend_known_all in Hk. subst l'. reflexivity.
  Qed.
  Lemma same_with_value x n s : w_extend_with_value c X x n s = on_fst (extend_with_value c E x n) s.
  Proof.
    unfold w_extend_with_value, extend_with_value. change (EPB c (shape X)) with (EPB c E).
    destruct (n <=? 4 * EPB c E); [apply same_repeat|].
    rewrite fst_bind. apply bind_cong; [symmetry; apply fst_reads|]. intros sl s1. cbv zeta.
    rewrite fst_bind. apply bind_cong; [apply same_repeat|]. intros _ s2.
    rewrite fst_bind. apply bind_cong; [symmetry; apply fst_lift|]. intros ce s3.
    rewrite fst_bind. apply bind_cong; [symmetry; apply fst_lift|]. intros mid s4.
    rewrite fst_bind. apply bind_cong; [symmetry; apply fst_lift|]. intros t s5.
    rewrite fst_bind. apply bind_cong; [symmetry; apply fst_lift|]. intros last s6.
    cbn [u_to pure_user]. rewrite user_pure.
    match goal with |- bind (self ?m) _ _ = _ => transitivity (on_fst (bind m (fun _ => extend c E (exact_iter (repeat x (N.to_nat last))))) s6) end.
    - rewrite fst_bind. apply bind_cong; [reflexivity|]. intros _ s7. apply same_repeat.
    - unfold on_fst. match goal with |- (let '(_, _) := ?a in _) = (let '(_, _) := ?b in _) => enough (a = b) as -> by reflexivity end.
      repeat (rewrite bind_assoc; apply bind_ext; intros ? ?). reflexivity.
  Qed.
  Lemma same_resize x n s : w_resize c X n x s = on_fst (resize c E n x) s.
  Proof.
    unfold w_resize, resize. rewrite fst_bind. apply bind_cong; [symmetry; apply fst_reads|]. intros l s1.
    destruct (l <? n); [|reflexivity]. rewrite fst_bind. apply bind_cong; [symmetry; apply fst_lift|]. intros d s2. apply same_with_value.
  Qed.
  (** reads of all items *)
  Lemma same_visit n : forall i v u,
    w_visit c X (fun _ => ret tt) n i (v, u) = (iter_collect c E v n (mkRange i (i + N.of_nat n)), (v, u)).
  Proof.
    induction n as [|n IH]; intros i v u.
    - cbn [w_visit iter_collect]. unfold iter_next, range_next. cbn [r_start r_end]. replace (i <? i + N.of_nat 0) with false by lia. reflexivity.
    - cbn [w_visit iter_collect]. unfold iter_next, range_next. cbn [r_start r_end]. replace (i <? i + N.of_nat (S n)) with true by lia.
      unfold bind at 1. rewrite same_elem. unfold on_fst, reads, iter_item. cbn [fst snd].
      destruct (get c E i v) as [[x|]|k| |]; try reflexivity. cbn [obind unwrap].
      rewrite user_pure. unfold bind. rewrite IH. replace (i + 1 + N.of_nat n) with (i + N.of_nat (S n)) by lia.
      destruct (iter_collect c E v n _); reflexivity.
  Qed.
  Lemma same_to_vec s : w_to_vec c X s = on_fst (reads (to_vec c E)) s.
  Proof.
    destruct s as [v u]. unfold w_to_vec, w_each, self_get, bind, reads, on_fst, to_vec, into_iter, iter_size_hint. cbn [fst snd r_start r_end].
    rewrite same_visit. rewrite N2Nat.id, N.sub_0_r. reflexivity.
  Qed.
End Same.

Section SameClosure.
  Context {St T : Type} {c : cfg} {E : enumlike T}.
  Local Notation X := (@pure_user St T E).
  Lemma same_retain_loop f n : forall i j v st,
    (match w_retain_loop c X (closure f) n i j (v, st) with
     | (Ret r, s') => (Ret (r, snd s'), fst s') | (Panic k, s') => (Panic k, fst s') | (Abort, s') => (Abort, fst s') | (UB, s') => (UB, fst s') end)
    = retain_loop c E f n i j st v.
  Proof.
    induction n as [|n IH]; intros i j v st; cbn [w_retain_loop retain_loop]; [reflexivity|].
    unfold bind at 1. rewrite same_elem. unfold on_fst, reads. cbn [fst snd]. unfold bind at 3.
    destruct (obind (get c E i v) _) as [x|k| |]; try reflexivity.
    unfold bind at 1, user, on_snd, closure. cbn [fst snd]. destruct (f st x) as [[b st']|]; [|reflexivity]. destruct b; [|apply IH].
    unfold bind. rewrite same_set. unfold on_fst. cbn [fst snd]. destruct (EnumVec.set c E j x v) as [[u|k| |] v1]; try reflexivity. apply IH.
  Qed.
  Lemma same_retain f v st : leaves (w_retain c X (closure f) (v, st)) = retain c E f st v.
  Proof.
    unfold w_retain, retain, self_get. unfold bind at 1, reads at 1. unfold bind at 2, reads at 1. cbn [fst].
    pose proof (same_retain_loop f (N.to_nat (len v)) 0 0 v st) as G. unfold bind at 2. rewrite <- G. unfold bind.
    destruct (w_retain_loop c X (closure f) (N.to_nat (len v)) 0 0 (v, st)) as [[r|k| |] [v1 st1]]; reflexivity.
  Qed.
  Lemma same_for_each_loop f n : forall i v st,
    leaves (w_for_each_loop c X (closure f) n i (v, st)) = for_each_loop c E f n i st v.
  Proof.
    induction n as [|n IH]; intros i v st; cbn [w_for_each_loop for_each_loop]; [reflexivity|].
    unfold bind at 1. rewrite same_elem. unfold on_fst, reads. cbn [fst snd]. unfold bind at 3.
    destruct (obind (get c E i v) _) as [x|k| |]; try reflexivity.
    unfold bind at 1, user, on_snd, closure. cbn [fst snd]. destruct (f st x) as [[y st']|]; [|reflexivity].
    unfold bind. rewrite same_set. unfold on_fst. cbn [fst snd]. destruct (EnumVec.set c E i y v) as [[u|k| |] v1]; try reflexivity. apply IH.
  Qed.
  Lemma same_for_each f v st : leaves (w_for_each c X (closure f) (v, st)) = for_each c E f st v.
  Proof. apply same_for_each_loop. Qed.
End SameClosure.

Section SameHash.
  Context {T : Type} {c : cfg} {E : enumlike T}.
  Local Notation X := (@pure_user (list N) T E).
  Definition feed (d : N) : M (list N) unit := fun l => (Ret tt, l ++ [d]).
  Lemma same_hash_loop n : forall i v l hs, hash_loop c E n i v = Ret hs -> w_hash_loop c X feed n i (v, l) = (Ret tt, (v, l ++ hs)).
  Proof.
    induction n as [|n IH]; intros i v l hs H; cbn [w_hash_loop hash_loop] in *.
    - inversion H. rewrite app_nil_r. reflexivity.
    - unfold bind at 1, self_get, reads. cbn [fst]. change (get_raw_unchecked c (shape X) i v) with (get_raw_unchecked c E i v).
      destruct (get_raw_unchecked c E i v) as [d|k| |]; try discriminate. cbn [obind] in H.
      destruct (hash_loop c E n (i + 1) v) as [hs'|k| |] eqn:Hh; try discriminate. inversion H; subst hs.
      unfold bind, user, on_snd, feed. cbn [fst snd]. rewrite (IH _ _ _ _ Hh), <- app_assoc. reflexivity.
  Qed.
End SameHash.
