(** RelateFacts.v -- proofs for C56. *)
From Verif Require Export Relate ClaimFacts.
Open Scope N_scope.
Set Implicit Arguments.
Unset Strict Implicit.
Set Default Proof Using "Type*".

Definition strip {T} (E : enumlike T) : enumlike unit := {| nv := nv E; to_d := fun _ => 0; from_d := fun _ => None |}.

Lemma b_assoc S A B C (m : M S A) (f : A -> M S B) (g : B -> M S C) s : bind (bind m f) g s = bind m (fun a => bind (f a) g) s.
Proof. unfold bind. destruct (m s) as [[a|k| |] s']; reflexivity. Qed.
Lemma b_ext S A B (m : M S A) (f g : A -> M S B) s : (forall a s', f a s' = g a s') -> bind m f s = bind m g s.
Proof. intros H. unfold bind. destruct (m s) as [[a|k| |] s']; auto. Qed.
Section OutRel.
  Context {A B : Type} (RA : A -> B -> Prop).
  Definition ro (a : outcome A) (b : outcome B) : Prop :=
    match a, b with
    | Ret x, Ret y => RA x y
    | Panic k, Panic k' => k = k'
    | Abort, Abort => True
    | UB, UB => True
    | _, _ => False
    end.
  Definition rr {S} (a : outcome A * S) (b : outcome B * S) : Prop := snd a = snd b /\ ro (fst a) (fst b).
End OutRel.
Lemma ro_eq A (o : outcome A) : ro Logic.eq o o. Proof. destruct o; cbn; auto. Qed.
Lemma ro_eq' A (o o' : outcome A) : o = o' -> ro Logic.eq o o'. Proof. intros ->. apply ro_eq. Qed.
Lemma rr_eq S A (r r' : outcome A * S) : r = r' -> rr Logic.eq r r'. Proof. intros ->. split; [reflexivity|apply ro_eq]. Qed.
Lemma ro_eq_inv A (o o' : outcome A) : ro Logic.eq o o' -> o = o'.
Proof. destruct o, o'; cbn; intros H; try contradiction; congruence. Qed.
Lemma ro_bind A A' B B' (RA : A -> A' -> Prop) (RB : B -> B' -> Prop) o o' f f' : ro RA o o' -> (forall a a', RA a a' -> ro RB (f a) (f' a')) ->
  ro RB (obind o f) (obind o' f').
Proof. destruct o, o'; cbn; intros H1 H2; try contradiction; auto. Qed.
Lemma rr_bind S A A' B B' (RA : A -> A' -> Prop) (RB : B -> B' -> Prop) (m : M S A) (m' : M S A') (f : A -> M S B) (f' : A' -> M S B') s :
  rr RA (m s) (m' s) -> (forall a a' s', RA a a' -> rr RB (f a s') (f' a' s')) -> rr RB (bind m f s) (bind m' f' s).
Proof.
  intros [H1 H2] H3. unfold bind. destruct (m s) as [o s1], (m' s) as [o' s2]. cbn in *. subst s2.
  destruct o, o'; cbn in H2; try contradiction; try (split; [reflexivity|exact H2]). apply H3. exact H2.
Qed.
Lemma rr_lift S A A' (RA : A -> A' -> Prop) (o : outcome A) (o' : outcome A') (s : S) : ro RA o o' -> rr RA (lift o s) (lift o' s).
Proof. intros H. split; [reflexivity|exact H]. Qed.
Lemma rr_reads S A A' (RA : A -> A' -> Prop) (f : S -> outcome A) (f' : S -> outcome A') (s : S) : ro RA (f s) (f' s) -> rr RA (reads f s) (reads f' s).
Proof. intros H. split; [reflexivity|exact H]. Qed.
Lemma rr_ret S A A' (RA : A -> A' -> Prop) (a : A) (a' : A') (s : S) : RA a a' -> rr RA (ret a s) (ret a' s).
Proof. intros H. split; [reflexivity|exact H]. Qed.

Section Facts.
  Context {T1 T2 : Type} {c : cfg} {R : T1 -> T2 -> Prop} {E1 : enumlike T1} {E2 : enumlike T2}.
  Hypothesis H : same_numbering R E1 E2.
  Local Notation S1 := (strip E1).
  Local Notation S2 := (strip E2).
  Lemma sEq : S1 = S2. Proof. unfold strip. rewrite (proj1 H). reflexivity. Qed.
  Lemma disc x y : R x y -> to_d E1 x = to_d E2 y. Proof. apply (proj1 (proj2 H)). Qed.

  Lemma r_from d : d < 2 ^ BITS E1 -> ro R (from_discr E1 d) (from_discr E2 d).
  Proof.
    intros Hd. pose proof (proj2 (proj2 H) d Hd) as G. unfold from_discr. destruct (from_d E1 d), (from_d E2 d); cbn in *; auto; contradiction.
  Qed.
  Lemma raw_small i v d : get_raw c E1 i v = Ret (Some d) -> d < 2 ^ BITS E1.
  Proof.
    unfold get_raw. destruct (len v <=? i); [discriminate|]. unfold get_raw_unchecked. destruct (block_index c E1 i) as [w b].
    destruct (load_unchecked w v) as [bl|k| |]; cbn; try discriminate. destruct (shr c bl b) as [t|k| |]; cbn; try discriminate. intros G. injection G as <-.
    assert (P2 : 0 < 2 ^ BITS E1) by (apply N.neq_0_lt_0, N.pow_nonzero; discriminate).
    assert (G2 : MASK c E1 <= 2 ^ BITS E1 - 1). { unfold MASK, cast_block. apply N.mod_le. apply N.pow_nonzero. discriminate. }
    assert (G3 : cast_usize c (N.land t (MASK c E1)) <= N.land t (MASK c E1)). { unfold cast_usize. apply N.mod_le. apply N.pow_nonzero. discriminate. }
    assert (G1 : N.land t (MASK c E1) < 2 ^ BITS E1) by (apply land_lt_r; clear - P2 G2; generalize dependent (2 ^ BITS E1); intros; lia). exact (N.le_lt_trans _ _ _ G3 G1).
  Qed.
  Lemma r_unwrap A B (RA : A -> B -> Prop) o o' : (match o, o' with Some x, Some y => RA x y | None, None => True | _, _ => False end) -> ro RA (unwrap o) (unwrap o').
  Proof. destruct o, o'; cbn; auto. Qed.
  Lemma e_get_raw i v : get_raw c E1 i v = get_raw c E2 i v.
  Proof. exact (f_equal (fun S => get_raw c S i v) sEq). Qed.
  Lemma r_get i v : ro (rel_opt R) (get c E1 i v) (get c E2 i v).
  Proof.
    unfold get. rewrite e_get_raw. destruct (get_raw c E2 i v) as [[d|]|k| |] eqn:Hr; cbn; auto.
    apply (ro_bind (RA := R)); [apply r_from; apply (raw_small (i := i) (v := v)); rewrite e_get_raw; exact Hr|]. auto.
  Qed.
  Definition elem {T} (E : enumlike T) i v := let! r := get c E i v in unwrap r.
  Lemma r_elem i v : ro R (elem E1 i v) (elem E2 i v).
  Proof. apply (ro_bind (RA := rel_opt R)); [apply r_get|]. intros a b G. apply r_unwrap. exact G. Qed.
  Lemma r_set i x y v : R x y -> rr Logic.eq (set c E1 i x v) (set c E2 i y v).
  Proof. intros G. apply rr_eq. unfold set. rewrite (disc G). exact (f_equal (fun S => set_raw c S i (to_d E2 y) v) sEq). Qed.
  Lemma r_push x y v : R x y -> rr Logic.eq (push c E1 x v) (push c E2 y v).
  Proof.
    intros G. unfold push. apply (rr_bind (RA := Logic.eq)); [apply rr_eq; exact (f_equal (fun S => grow_if_needed c S v) sEq)|].
    intros a a' s _. apply (rr_bind (RA := Logic.eq)); [apply rr_eq; reflexivity|]. intros idx ? s1 <-.
    apply (rr_bind (RA := Logic.eq)); [apply rr_eq; reflexivity|]. intros n1 ? s2 <-.
    apply (rr_bind (RA := Logic.eq)); [apply rr_eq; reflexivity|]. intros _ _ s3 _. apply r_set. exact G.
  Qed.
  Lemma r_pop v : rr (rel_opt R) (pop c E1 v) (pop c E2 v).
  Proof.
    unfold pop. destruct (is_empty v); [split; [reflexivity|exact Logic.I]|].
    apply (rr_bind (RA := Logic.eq)); [apply rr_eq; reflexivity|]. intros i ? s1 <-.
    apply (rr_bind (RA := R)); [apply rr_reads; apply r_elem|]. intros x y s2 G.
    apply (rr_bind (RA := Logic.eq)); [apply rr_eq; reflexivity|]. intros n1 ? s3 <-.
    apply (rr_bind (RA := Logic.eq)); [apply rr_eq; reflexivity|]. intros _ _ s4 _. apply rr_ret. exact G.
  Qed.
  Lemma r_swap_remove i v : rr R (swap_remove c E1 i v) (swap_remove c E2 i v).
  Proof.
    unfold swap_remove. apply (rr_bind (RA := Logic.eq)); [apply rr_eq; reflexivity|]. intros l ? s1 <-.
    apply (rr_bind (RA := Logic.eq)); [apply rr_eq; exact (f_equal (fun S => swap c S i l s1) sEq)|]. intros _ _ s2 _.
    apply (rr_bind (RA := rel_opt R)); [apply r_pop|]. intros a b s3 G. apply rr_lift. apply r_unwrap. exact G.
  Qed.
  Definition insert_rest (E : enumlike unit) (index prev : N) : M ev unit :=
    let slow_insert := index mod EPB c E in
    self_len <- reads (fun v => Ret (len v)) ;;
    r <- (if 0 <? slow_insert then
            l0 <- lift (usub c index slow_insert) ;;
            l1 <- lift (uadd c l0 (EPB c E)) ;;
            let slow_limit := N.min l1 self_len in
            insert_slow c E (N.to_nat (slow_limit - index)) index prev
          else ret (index, prev)) ;;
    let i := fst r in
    let prev := snd r in
    self_len <- reads (fun v => Ret (len v)) ;;
    if i <? self_len then
      let ib := fst (block_index c E i) in
      l <- lift (usub c self_len 1) ;;
      let last_ib := fst (block_index c E l) in
      insert_blocks c E (N.to_nat (last_ib + 1 - ib)) ib (cast_block c prev)
    else ret tt.
  Lemma insert_split T (E : enumlike T) i x : insert c E i x = (push c E x ;;; insert_rest (strip E) i (to_d E x)).
  Proof. reflexivity. Qed.
  Lemma r_insert i x y v : R x y -> rr Logic.eq (insert c E1 i x v) (insert c E2 i y v).
  Proof.
    intros G. rewrite !insert_split. apply (rr_bind (RA := Logic.eq)); [apply r_push; exact G|]. intros _ _ s _.
    apply rr_eq. rewrite (disc G), sEq. reflexivity.
  Qed.
  Definition remove_rest (E : enumlike unit) (index : N) : M ev unit :=
    length <- reads (fun v => usub c (len v) 1) ;;
    block_limit <- lift (umul c (1 + fst (block_index c E index)) (EPB c E)) ;;
    let slow_limit := N.min length block_limit in
    i <- remove_slow c E (N.to_nat (slow_limit - index)) index ;;
    last <- reads (fun v => usub c (len v) 1) ;;
    prev <- reads (get_raw_unchecked c E last) ;;
    n1 <- reads (fun v => usub c (num v) 1) ;;
    set_len n1 ;;;
    self_len <- reads (fun v => Ret (len v)) ;;
    (if i <? self_len then
       let ib := fst (block_index c E i) in
       l <- lift (usub c self_len 1) ;;
       let last_ib := fst (block_index c E l) in
       remove_blocks c E (N.to_nat (last_ib + 1 - ib)) ib (cast_block c prev)
     else ret tt).
  Lemma remove_split T (E : enumlike T) i v : remove c E i v = (x <- reads (elem E i) ;; remove_rest (strip E) i ;;; ret x) v.
  Proof.
    symmetry. unfold remove, remove_rest. apply b_ext. intros x s.
    cbv zeta. repeat (rewrite b_assoc; apply b_ext; intros ? ?). reflexivity.
  Qed.
  Lemma r_remove i v : rr R (remove c E1 i v) (remove c E2 i v).
  Proof.
    rewrite !remove_split. apply (rr_bind (RA := R)); [apply rr_reads; apply r_elem|]. intros x y s G.
    apply (rr_bind (RA := Logic.eq)); [apply rr_eq; rewrite sEq; reflexivity|]. intros _ _ s1 _. apply rr_ret. exact G.
  Qed.
  (** closures *)
  Definition rel_st {A B C D} (RA : A -> C -> Prop) (RB : B -> D -> Prop) (p : A * B) (q : C * D) : Prop := RA (fst p) (fst q) /\ RB (snd p) (snd q).
  Definition rel_optp {A B} (RP : A -> B -> Prop) (a : option A) (b : option B) : Prop :=
    match a, b with Some x, Some y => RP x y | None, None => True | _, _ => False end.
  Section Closures.
    Context {St St' : Type} (Q : St -> St' -> Prop).
    Section Retain.
      Context (f : St -> T1 -> option (bool * St)) (g : St' -> T2 -> option (bool * St')).
      Hypothesis Hf : forall s s' x y, Q s s' -> R x y -> rel_optp (rel_st Logic.eq Q) (f s x) (g s' y).
      Lemma r_retain_loop n : forall i j s s' v, Q s s' ->
        rr (rel_st Logic.eq Q) (retain_loop c E1 f n i j s v) (retain_loop c E2 g n i j s' v).
      Proof.
        induction n as [|n IH]; intros i j s s' v G; cbn [retain_loop]; [apply rr_ret; split; [reflexivity|exact G]|].
        apply (rr_bind (RA := R)); [apply rr_reads; apply r_elem|]. intros x y v1 Gx. pose proof (Hf G Gx) as Hx.
        destruct (f s x) as [[b st]|], (g s' y) as [[b' st']|]; cbn in Hx; try contradiction; [|apply rr_lift; reflexivity].
        destruct Hx as [Hb Hst]. cbn in Hb, Hst. subst b'. destruct b.
        - apply (rr_bind (RA := Logic.eq)); [apply r_set; exact Gx|]. intros _ _ v2 _. apply IH. exact Hst.
        - apply IH. exact Hst.
      Qed.
      Lemma r_retain s s' v : Q s s' -> rr Q (retain c E1 f s v) (retain c E2 g s' v).
      Proof.
        intros G. unfold retain. apply (rr_bind (RA := Logic.eq)); [apply rr_eq; reflexivity|]. intros l ? v1 <-.
        apply (rr_bind (RA := rel_st Logic.eq Q)); [apply r_retain_loop; exact G|]. intros a b v2 [G1 G2].
        apply (rr_bind (RA := Logic.eq)); [apply rr_eq; rewrite G1; reflexivity|]. intros _ _ v3 _. apply rr_ret. exact G2.
      Qed.
    End Retain.
    Section Each.
      Context (f : St -> T1 -> option (T1 * St)) (g : St' -> T2 -> option (T2 * St')).
      Hypothesis Hf : forall s s' x y, Q s s' -> R x y -> rel_optp (rel_st R Q) (f s x) (g s' y).
      Lemma r_for_each_loop n : forall i s s' v, Q s s' -> rr Q (for_each_loop c E1 f n i s v) (for_each_loop c E2 g n i s' v).
      Proof.
        induction n as [|n IH]; intros i s s' v G; cbn [for_each_loop]; [apply rr_ret; exact G|].
        apply (rr_bind (RA := R)); [apply rr_reads; apply r_elem|]. intros x y v1 Gx. pose proof (Hf G Gx) as Hx.
        destruct (f s x) as [[b st]|], (g s' y) as [[b' st']|]; cbn in Hx; try contradiction; [|apply rr_lift; reflexivity].
        destruct Hx as [Hb Hst]. apply (rr_bind (RA := Logic.eq)); [apply r_set; exact Hb|]. intros _ _ v2 _. apply IH. exact Hst.
      Qed.
      Lemma r_for_each s s' v : Q s s' -> rr Q (for_each c E1 f s v) (for_each c E2 g s' v).
      Proof.
        intros G. unfold for_each. apply (rr_bind (RA := Logic.eq)); [apply rr_eq; reflexivity|]. intros l ? v1 <-. apply r_for_each_loop. exact G.
      Qed.
    End Each.
  End Closures.
  (** extend *)
  Lemma r_extend_known pan n : forall i sl l m v, Forall2 R l m -> rr (Forall2 R) (extend_known c E1 n i sl pan l v) (extend_known c E2 n i sl pan m v).
  Proof.
    induction n as [|n IH]; intros i sl l m v G; cbn [extend_known]; [apply rr_ret; exact G|].
    apply (rr_bind (RA := Logic.eq)); [apply rr_eq; reflexivity|]. intros idx ? v1 <-. destruct G as [|x y l m Gx G].
    - apply rr_lift. destruct pan; reflexivity.
    - apply (rr_bind (RA := Logic.eq)); [apply r_set; exact Gx|]. intros _ _ v2 _. apply IH. exact G.
  Qed.
  Lemma r_extend_rest pan l m : Forall2 R l m -> forall v, rr Logic.eq (extend_rest c E1 pan l v) (extend_rest c E2 pan m v).
  Proof.
    induction 1 as [|x y l m Gx G IH]; intros v; cbn [extend_rest].
    - destruct pan; [apply rr_lift; reflexivity|apply rr_ret; reflexivity].
    - apply (rr_bind (RA := Logic.eq)); [apply r_push; exact Gx|]. intros _ _ v2 _. apply IH.
  Qed.
  Lemma r_extend a b v : rel_iter R a b -> rr Logic.eq (extend c E1 a v) (extend c E2 b v).
  Proof.
    intros [G1 [G2 G3]]. unfold extend. rewrite G2, G3. apply (rr_bind (RA := Logic.eq)); [apply rr_eq; reflexivity|]. intros l ? v1 <-.
    apply (rr_bind (RA := Logic.eq)); [apply rr_eq; exact (f_equal (fun S => reserve c S (lower b) v1) sEq)|]. intros _ _ v2 _.
    apply (rr_bind (RA := Logic.eq)); [apply rr_eq; reflexivity|]. intros n ? v3 <-.
    apply (rr_bind (RA := Logic.eq)); [apply rr_eq; reflexivity|]. intros _ _ v4 _.
    apply (rr_bind (RA := Forall2 R)); [apply r_extend_known; exact G1|]. intros r r' v5 G. apply r_extend_rest. exact G.
  Qed.
  Lemma rel_exact l m : Forall2 R l m -> rel_iter R (exact_iter l) (exact_iter m).
  Proof. intros G. split; [exact G|]. split; [|reflexivity]. cbn. unfold lenN. f_equal. induction G; cbn; congruence. Qed.
  Lemma rel_repeat x y n : R x y -> Forall2 R (repeat x n) (repeat y n).
  Proof. intros G. induction n; cbn; constructor; auto. Qed.
  Lemma e_EPB : EPB c E1 = EPB c E2. Proof. exact (f_equal (fun S => EPB c S) sEq). Qed.
  Lemma e_BITS : BITS E1 = BITS E2. Proof. exact (f_equal (fun S => BITS S) sEq). Qed.
  Lemma r_extend_with_value x y n v : R x y -> rr Logic.eq (extend_with_value c E1 x n v) (extend_with_value c E2 y n v).
  Proof.
    intros G. unfold extend_with_value. rewrite e_EPB. destruct (n <=? 4 * EPB c E2); [apply r_extend, rel_exact, rel_repeat; exact G|].
    apply (rr_bind (RA := Logic.eq)); [apply rr_eq; reflexivity|]. intros l ? v1 <-. cbv zeta.
    apply (rr_bind (RA := Logic.eq)); [apply r_extend, rel_exact, rel_repeat; exact G|]. intros _ _ v2 _.
    apply (rr_bind (RA := Logic.eq)); [apply rr_eq; reflexivity|]. intros ce ? v3 <-.
    apply (rr_bind (RA := Logic.eq)); [apply rr_eq; reflexivity|]. intros mid ? v4 <-.
    apply (rr_bind (RA := Logic.eq)); [apply rr_eq; reflexivity|]. intros su ? v5 <-.
    apply (rr_bind (RA := Logic.eq)); [apply rr_eq; reflexivity|]. intros la ? v6 <-.
    apply (rr_bind (RA := Logic.eq)); [apply rr_eq; rewrite (disc G), e_BITS; reflexivity|]. intros bv ? v7 <-.
    apply (rr_bind (RA := Logic.eq)); [apply rr_eq; reflexivity|]. intros ol ? v8 <-.
    apply (rr_bind (RA := Logic.eq)); [apply rr_eq; exact (f_equal (fun S => fix_storage c S v8) sEq)|]. intros _ _ v9 _.
    apply (rr_bind (RA := Logic.eq)); [apply rr_eq; reflexivity|]. intros _ _ v10 _.
    apply (rr_bind (RA := Logic.eq)); [apply rr_eq; reflexivity|]. intros _ _ v11 _.
    apply (rr_bind (RA := Logic.eq)); [apply rr_eq; reflexivity|]. intros mi ? v12 <-.
    apply (rr_bind (RA := Logic.eq)); [apply rr_eq; reflexivity|]. intros nn ? v13 <-.
    apply (rr_bind (RA := Logic.eq)); [apply rr_eq; reflexivity|]. intros _ _ v14 _.
    apply r_extend, rel_exact, rel_repeat. exact G.
  Qed.
  Lemma r_resize x y n v : R x y -> rr Logic.eq (resize c E1 n x v) (resize c E2 n y v).
  Proof.
    intros G. unfold resize. apply (rr_bind (RA := Logic.eq)); [apply rr_eq; reflexivity|]. intros l ? v1 <-.
    destruct (l <? n); [|apply rr_eq; reflexivity]. apply (rr_bind (RA := Logic.eq)); [apply rr_eq; reflexivity|]. intros d ? v2 <-.
    apply r_extend_with_value. exact G.
  Qed.
  Lemma r_build (m1 m2 : M ev unit) : rr Logic.eq (m1 (ev_new c)) (m2 (ev_new c)) -> build c m1 = build c m2.
  Proof.
    unfold build. intros [G1 G2]. destruct (m1 (ev_new c)) as [o v], (m2 (ev_new c)) as [o' v']. cbn in *. subst v'.
    destruct o, o'; cbn in G2; try contradiction; congruence.
  Qed.
  (** queries *)
  Lemma r_any x y v : R x y -> any c E1 x v = any c E2 y v.
  Proof. intros G. unfold any, x_mask. rewrite (disc G). exact (f_equal (fun S => any c {| nv := nv S; to_d := fun _ => to_d E2 y; from_d := from_d S |} tt v) sEq). Qed.
  Lemma r_all x y v : R x y -> all c E1 x v = all c E2 y v.
  Proof. intros G. unfold all, x_mask. rewrite (disc G). exact (f_equal (fun S => all c {| nv := nv S; to_d := fun _ => to_d E2 y; from_d := from_d S |} tt v) sEq). Qed.
  Lemma r_item v o : ro (rel_opt R) (iter_item c E1 v o) (iter_item c E2 v o).
  Proof.
    destruct o as [i|]; [|exact Logic.I]. apply (ro_bind (RA := rel_opt R)); [apply r_get|]. intros a b G.
    apply (ro_bind (RA := R)); [apply r_unwrap; exact G|]. auto.
  Qed.
  Lemma r_collect v fuel : forall r, ro (Forall2 R) (iter_collect c E1 v fuel r) (iter_collect c E2 v fuel r).
  Proof.
    induction fuel as [|fuel IH]; intros r; cbn [iter_collect]; unfold iter_next; destruct (range_next r) as [o r'];
      pose proof (r_item v o) as G; destruct (iter_item c E1 v o) as [[x|]|k| |], (iter_item c E2 v o) as [[y|]|k'| |]; cbn in G; try contradiction; cbn; auto.
    apply (ro_bind (RA := Forall2 R)); [apply IH|]. intros l m Gl. cbn. constructor; assumption.
  Qed.
  Lemma r_to_vec v : ro (Forall2 R) (to_vec c E1 v) (to_vec c E2 v).
  Proof. apply r_collect. Qed.
  Lemma r_iter v calls : forall r, ro (Forall2 (rel_item R)) (m_iter c E1 v r calls) (m_iter c E2 v r calls).
  Proof.
    induction calls as [|ca calls IH]; intros r; cbn [m_iter]; [constructor|].
    assert (Hi : forall o (r' : range), ro (rel_item R) (let! x := iter_item c E1 v o in Ret (JItem x)) (let! x := iter_item c E2 v o in Ret (JItem x))).
    { intros o r'. apply (ro_bind (RA := rel_opt R)); [apply r_item|]. auto. }
    assert (Hk : forall o1 o2 (r' : range), ro (rel_item R) o1 o2 ->
      ro (Forall2 (rel_item R)) (let! x := o1 in let! l := m_iter c E1 v r' calls in Ret (x :: l)) (let! x := o2 in let! l := m_iter c E2 v r' calls in Ret (x :: l))).
    { intros o1 o2 r' G. apply (ro_bind (RA := rel_item R)); [exact G|]. intros a b Ga. apply (ro_bind (RA := Forall2 (rel_item R))); [apply IH|].
      intros l m Gl. cbn. constructor; assumption. }
    destruct ca; unfold iter_next, iter_next_back, iter_nth.
    - destruct (range_next r) as [o r']. apply Hk. apply Hi. exact r'.
    - destruct (range_next_back r) as [o r']. apply Hk. apply Hi. exact r'.
    - destruct (range_nth n r) as [o r']. apply Hk. apply Hi. exact r'.
    - apply Hk. reflexivity.
    - apply Hk. reflexivity.
  Qed.

  (** calls *)
  Lemma r_of_outcome A B (RA : A -> B -> Prop) k k' o o' : ro RA o o' -> (forall a b, RA a b -> rel_res R (k a) (k' b)) ->
    rel_out R (of_outcome (T := T1) k o) (of_outcome (T := T2) k' o').
  Proof.
    intros G Hk. destruct o as [a|q| |], o' as [b|q'| |]; cbn in G; try contradiction; cbn; auto. subst q'. destruct q; cbn; auto.
  Qed.
  Definition rs (a : mout T1 * list ev) (b : mout T2 * list ev) : Prop := rel_out R (fst a) (fst b) /\ snd a = snd b.
  Lemma r_on A B (RA : A -> B -> Prop) p r (m : M ev A) (m' : M ev B) k k' : (forall v, rr RA (m v) (m' v)) -> (forall a b, RA a b -> rel_res R (k a) (k' b)) ->
    rs (m_on p r m k) (m_on p r m' k').
  Proof.
    intros G Hk. unfold m_on. destruct (nth_error p r) as [v|]; [|split; reflexivity || exact Logic.I].
    destruct (G v) as [G1 G2]. destruct (m v) as [o v1], (m' v) as [o' v2]. cbn in *. subst v2. split; [exact (r_of_outcome G2 Hk)|reflexivity].
  Qed.
  Lemma r_read A B (RA : A -> B -> Prop) p r (m : ev -> outcome A) (m' : ev -> outcome B) k k' : (forall v, ro RA (m v) (m' v)) -> (forall a b, RA a b -> rel_res R (k a) (k' b)) ->
    rs (m_read p r m k) (m_read p r m' k').
  Proof.
    intros G Hk. unfold m_read. destruct (nth_error p r) as [v|]; [|split; reflexivity || exact Logic.I].
    split; [exact (r_of_outcome (G v) Hk)|reflexivity].
  Qed.
  Lemma r_new p o o' : o = o' -> rs (m_new p o) (m_new p o').
  Proof. intros <-. unfold m_new. destruct o as [v|q| |]; (split; [|reflexivity]); cbn; auto. destruct q; cbn; auto. Qed.

  Lemma r_step p o1 o2 : rel_op R o1 o2 -> rs (m_step c E1 p o1) (m_step c E2 p o2).
  Proof.
    assert (Hu : forall a b : unit, a = b -> rel_res R RUnit RUnit) by (intros; exact Logic.I).
    destruct 1; cbn [m_step].
    - apply r_new. reflexivity.
    - apply r_new. exact (f_equal (fun S => with_capacity c S n) sEq).
    - apply r_new. apply r_build. apply r_extend_with_value. assumption.
    - apply r_new. apply r_build. apply r_extend, rel_exact. assumption.
    - apply r_new. apply r_build. apply r_extend. assumption.
    - destruct (nth_error p r); [apply r_new; reflexivity|split; reflexivity || exact Logic.I].
    - apply (r_on (RA := Logic.eq)); [|exact Hu]. intros v. apply r_push. assumption.
    - apply (r_on (RA := rel_opt R)); [|auto]. intros v. apply r_pop.
    - apply (r_on (RA := Logic.eq)); [|exact Hu]. intros v. apply r_insert. assumption.
    - apply (r_on (RA := R)); [|auto]. intros v. apply r_remove.
    - apply (r_on (RA := Logic.eq)); [|exact Hu]. intros v. apply rr_eq. exact (f_equal (fun S => swap c S a b v) sEq).
    - apply (r_on (RA := R)); [|auto]. intros v. apply r_swap_remove.
    - apply (r_on (RA := Logic.eq)); [|exact Hu]. intros v. apply rr_eq. reflexivity.
    - apply (r_on (RA := Logic.eq)); [|exact Hu]. intros v. apply rr_eq. reflexivity.
    - apply (r_on (RA := Logic.eq)); [|exact Hu]. intros v. apply r_resize. assumption.
    - apply (r_read (RA := rel_opt R)); [|auto]. intros v. apply r_get.
    - apply (r_on (RA := Logic.eq)); [|exact Hu]. intros v. apply r_set. assumption.
    - apply (r_on (RA := Logic.eq)); [|exact Hu]. intros v. apply rr_eq. exact (f_equal (fun S => reserve c S k v) sEq).
    - apply (r_on (RA := Logic.eq)); [|exact Hu]. intros v. apply rr_eq. exact (f_equal (fun S => shrink_to_fit c S v) sEq).
    - apply (r_on (RA := Logic.eq)); [|exact Hu]. intros v. apply r_extend. assumption.
    - destruct (nth_error p r) as [v|]; [|split; reflexivity || exact Logic.I]. destruct (nth_error p s) as [w|]; [|split; reflexivity || exact Logic.I].
      destruct (Nat.eqb r s); [split; reflexivity || exact Logic.I|].
      pose proof (f_equal (fun S => append c S (v, w)) sEq) as G. cbv beta in G. change (append c S1) with (append c E1) in G. change (append c S2) with (append c E2) in G.
      rewrite G. destruct (append c E2 (v, w)) as [o q]. split; [apply (r_of_outcome (RA := Logic.eq)); [apply ro_eq|exact Hu]|reflexivity].
    - destruct (nth_error p r) as [v|]; [|split; reflexivity || exact Logic.I].
      pose proof (f_equal (fun S => split_off c S n v) sEq) as G. cbv beta in G. change (split_off c S1) with (split_off c E1) in G. change (split_off c S2) with (split_off c E2) in G.
      rewrite G. destruct (split_off c E2 n v) as [[w|q| |] v']; (split; [|reflexivity]); cbn; auto. destruct q; cbn; auto.
    - apply (r_on (RA := Forall2 R)); [|auto]. intros v. apply r_retain; [|constructor].
      intros s s' x y Gs Gx. unfold seen_pred. rewrite (H0 _ _ _ _ Gs Gx). destruct (g s' y); cbn; auto. split; [reflexivity|]. apply Forall2_app; auto.
    - apply (r_on (RA := Forall2 R)); [|auto]. intros v. apply r_for_each; [|constructor].
      intros s s' x y Gs Gx. unfold seen_map. pose proof (H0 _ _ _ _ Gs Gx) as G. destruct (f s x), (g s' y); cbn in *; auto. split; [exact G|]. apply Forall2_app; auto.
    - apply (r_read (RA := Logic.eq)); [|intros a b ->; reflexivity]. intros v. apply ro_eq'. apply r_any. assumption.
    - apply (r_read (RA := Logic.eq)); [|intros a b ->; reflexivity]. intros v. apply ro_eq'. apply r_all. assumption.
    - destruct (nth_error p r) as [v|]; [|split; reflexivity || exact Logic.I]. destruct (nth_error p s) as [w|]; [|split; reflexivity || exact Logic.I].
      split; [|reflexivity]. apply (r_of_outcome (RA := Logic.eq)); [|intros a b ->; reflexivity]. apply ro_eq'. exact (f_equal (fun S => eq c S v w) sEq).
    - apply (r_read (RA := Logic.eq)); [|intros a b ->; reflexivity]. intros v. apply ro_eq'. exact (f_equal (fun S => hash c S v) sEq).
    - apply (r_read (RA := Forall2 R)); [|auto]. intros v. apply r_to_vec.
    - apply (r_read (RA := Forall2 (rel_item R))); [|auto]. intros v. apply r_iter.
    - apply (r_read (RA := Logic.eq)); [|intros a b ->; reflexivity]. intros v. apply ro_eq.
    - apply (r_read (RA := Logic.eq)); [|intros a b ->; reflexivity]. intros v. apply ro_eq.
  Qed.
  Lemma r_run prog1 prog2 : Forall2 (rel_op R) prog1 prog2 -> forall p,
    Forall2 (rel_out R) (fst (m_run c E1 p prog1)) (fst (m_run c E2 p prog2)) /\ snd (m_run c E1 p prog1) = snd (m_run c E2 p prog2).
  Proof.
    induction 1 as [|o1 o2 prog1 prog2 Ho Hp IH]; intros p; cbn [m_run]; [split; constructor|].
    destruct (r_step p Ho) as [G1 G2]. destruct (m_step c E1 p o1) as [r1 p1], (m_step c E2 p o2) as [r2 p2]. cbn in G1, G2. subst p2.
    specialize (IH p1). destruct (m_run c E1 p1 prog1) as [rs1 q1], (m_run c E2 p1 prog2) as [rs2 q2]. cbn in IH. destruct IH as [I1 I2].
    destruct r1, r2; cbn in G1; try contradiction; cbn; (split; [constructor; cbn; auto|auto]).
  Qed.
  Lemma r_play n k1 k2 : rel_client R k1 k2 -> forall s1 s2 p, Forall2 (rel_res R) s1 s2 ->
    Forall2 (rel_out R) (m_play c E1 n k1 s1 p) (m_play c E2 n k2 s2 p).
  Proof.
    intros Hk. induction n as [|n IH]; intros s1 s2 p Hs; cbn [m_play]; [constructor|].
    pose proof (Hk _ _ Hs) as G. destruct (k1 s1) as [o1|], (k2 s2) as [o2|]; cbn in G; try contradiction; [|constructor].
    destruct (r_step p G) as [G1 G2]. destruct (m_step c E1 p o1) as [r1 p1], (m_step c E2 p o2) as [r2 p2]. cbn in G1, G2. subst p2.
    destruct r1, r2; cbn in G1; try contradiction; constructor; cbn; auto. apply IH. apply Forall2_app; auto.
  Qed.
End Facts.
