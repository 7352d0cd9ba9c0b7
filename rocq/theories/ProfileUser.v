(** ProfileUser.v -- proofs for PropProfile.v: user code with state (User.v). *)
From Verif Require Export ProfileFacts User.
Open Scope N_scope.
Set Implicit Arguments.
#[local] Hint Resolve p_uadd p_usub p_umul p_shl p_shr p_bmul p_get_u p_set_u p_get_raw p_set_raw p_get p_set p_reserve p_swap p_push p_pop
  p_insert_shift p_remove_shift p_insert_slow p_insert_blocks p_remove_slow p_remove_blocks p_extend p_fill_pattern p_fill p_one : prof.

Section P.
  Context {U T : Type} (c : cfg) (X : usercode U T).
  Local Notation D := (debug c).
  Local Notation R := (release c).
  Local Notation MW := (M (ev * U)).
  Lemma sm_on S A (m m' : M ev A) : same_method m m' -> same_method (S := ev * S) (on_fst m) (on_fst m').
  Proof. apply sm_fst. Qed.
  Ltac ug := unfold self, user, self_get; ag.
  Lemma pu_get i : same_method (w_get D X i) (w_get R X i). Proof. unfold w_get. ug. Qed.
  Hint Resolve pu_get : prof.
  Lemma pu_elem i : same_method (w_elem D X i) (w_elem R X i). Proof. unfold w_elem. ug. Qed.
  Hint Resolve pu_elem : prof.
  Lemma pu_set i x : same_method (w_set D X i x) (w_set R X i x). Proof. unfold w_set. ug. Qed.
  Hint Resolve pu_set : prof.
  Lemma pu_push x : same_method (w_push D X x) (w_push R X x). Proof. unfold w_push. ug. Qed.
  Hint Resolve pu_push : prof.
  Lemma pu_pop : same_method (w_pop D X) (w_pop R X).
  Proof.
    intros s. unfold w_pop. destruct (is_empty (fst s)); [right; reflexivity|].
    match goal with |- fst (?f s) = _ \/ ?f s = ?g s => assert (H : same_method f g) by ug; apply H end.
  Qed.
  Hint Resolve pu_pop : prof.
  Lemma pu_swap_remove i : same_method (w_swap_remove D X i) (w_swap_remove R X i). Proof. unfold w_swap_remove. ug. Qed.
  Lemma pu_insert i x : same_method (w_insert D X i x) (w_insert R X i x). Proof. unfold w_insert, block_index. cbn [fst]. ug. Qed.
  Lemma pu_remove i : same_method (w_remove D X i) (w_remove R X i). Proof. unfold w_remove, block_index. cbn [fst]. ug. Qed.
  Lemma pu_retain_loop f n : forall i j, same_method (w_retain_loop D X f n i j) (w_retain_loop R X f n i j).
  Proof. induction n as [|n IH]; intros; cbn [w_retain_loop]; ug. Qed.
  Hint Resolve pu_retain_loop : prof.
  Lemma pu_retain f : same_method (w_retain D X f) (w_retain R X f). Proof. unfold w_retain. ug. Qed.
  Lemma pu_each_loop f n : forall i, same_method (w_for_each_loop D X f n i) (w_for_each_loop R X f n i).
  Proof. induction n as [|n IH]; intros; cbn [w_for_each_loop]; ug. Qed.
  Hint Resolve pu_each_loop : prof.
  Lemma pu_for_each f : same_method (w_for_each D X f) (w_for_each R X f). Proof. unfold w_for_each. ug. Qed.
  Section Ext.
    Context {I : Type} (next : I -> M U (option T * I)).
    Lemma pu_known n : forall i l it, same_method (w_known D X next n i l it) (w_known R X next n i l it).
    Proof. induction n as [|n IH]; intros; cbn [w_known]; ug. Qed.
    Lemma pu_rest n : forall it, same_method (w_rest D X next n it) (w_rest R X next n it).
    Proof. induction n as [|n IH]; intros; cbn [w_rest]; ug. Qed.
    Hint Resolve pu_known pu_rest : prof.
    Lemma pu_extend n h it : same_method (w_extend D X next n h it) (w_extend R X next n h it). Proof. unfold w_extend. ug. Qed.
  End Ext.
  Hint Resolve pu_extend : prof.
  Lemma pu_repeat x n : same_method (w_repeat D X x n) (w_repeat R X x n). Proof. unfold w_repeat. ug. Qed.
  Hint Resolve pu_repeat : prof.
  Lemma pu_with_value x n : same_method (w_extend_with_value D X x n) (w_extend_with_value R X x n).
  Proof. unfold w_extend_with_value. change (EPB D (shape X)) with (EPB c (shape X)). change (EPB R (shape X)) with (EPB c (shape X)). ug. Qed.
  Hint Resolve pu_with_value : prof.
  Lemma pu_resize n x : same_method (w_resize D X n x) (w_resize R X n x). Proof. unfold w_resize. ug. Qed.
  Lemma pu_any x : same_method (w_any D X x) (w_any R X x).
  Proof.
    intros s. unfold w_any. destruct (is_empty (fst s)); [right; reflexivity|]. unfold block_index.
    match goal with |- fst (?f s) = _ \/ ?f s = ?g s => assert (H : same_method f g); [|apply H] end. ug.
  Qed.
  Lemma pu_all x : same_method (w_all D X x) (w_all R X x).
  Proof.
    intros s. unfold w_all. destruct (is_empty (fst s)); [right; reflexivity|]. unfold block_index.
    match goal with |- fst (?f s) = _ \/ ?f s = ?g s => assert (H : same_method f g); [|apply H] end. ug.
  Qed.
  Lemma pu_visit f n : forall i, same_method (w_visit D X f n i) (w_visit R X f n i).
  Proof. induction n as [|n IH]; intros; cbn [w_visit]; ug. Qed.
  Hint Resolve pu_visit : prof.
  Lemma pu_each f : same_method (w_each D X f) (w_each R X f). Proof. unfold w_each. ug. Qed.
  Lemma pu_item o : same_method (w_item D X o) (w_item R X o). Proof. unfold w_item. ug. Qed.
  Hint Resolve pu_item : prof.
  Lemma pu_iter calls : forall r, same_method (w_iter D X r calls) (w_iter R X r calls).
  Proof.
    induction calls as [|ca calls IH]; intros r; cbn [w_iter]; [apply sm_refl|].
    destruct ca; try match goal with |- context [range_next r] => destruct (range_next r) | |- context [range_next_back r] => destruct (range_next_back r) | |- context [range_nth ?n r] => destruct (range_nth n r) end; ug.
  Qed.
  Lemma pu_hash_loop h n : forall i, same_method (w_hash_loop D X h n i) (w_hash_loop R X h n i).
  Proof. induction n as [|n IH]; intros; cbn [w_hash_loop]; ug. Qed.
  Hint Resolve pu_hash_loop : prof.
  Lemma pu_hash h : same_method (w_hash D X h) (w_hash R X h). Proof. unfold w_hash. ug. Qed.
  Lemma pu_build A (d r : MW A) : same_method d r -> same_method (w_build D d) (w_build R r).
  Proof.
    intros H u. unfold w_build. change (ev_new R) with (ev_new D). destruct (H (ev_new D, u)) as [G|G].
    - left. destruct (d (ev_new D, u)) as [o s]. cbn in G. subst o. reflexivity.
    - rewrite G. right. reflexivity.
  Qed.
  Lemma pu_on A p u r (d g : MW A) k : same_method d g -> fst (w_on (T := T) p u r d k) = MRes RPanic \/ w_on (T := T) p u r d k = w_on p u r g k.
  Proof.
    intros H. unfold w_on. destruct (nth_error p r) as [v|]; [|right; reflexivity]. destruct (H (v, u)) as [G|G].
    - left. destruct (d (v, u)) as [o s]. cbn in *. subst o. reflexivity.
    - right. rewrite G. reflexivity.
  Qed.
  Lemma pu_new p u (d g : M U ev) : same_method d g -> fst (w_new (T := T) p u d) = MRes RPanic \/ w_new (T := T) p u d = w_new p u g.
  Proof.
    intros H. unfold w_new. destruct (H u) as [G|G].
    - left. destruct (d u) as [o s]. cbn in *. subst o. reflexivity.
    - right. rewrite G. reflexivity.
  Qed.
  Theorem pu_step s o : fst (w_step D X s o) = MRes RPanic \/ w_step D X s o = w_step R X s o.
  Proof.
    destruct s as [p u]. destruct o; cbn [w_step].
    - destruct (silent o); [|right; reflexivity]. destruct (p_step c (shape X) p o) as [G|G].
      + left. destruct (m_step D (shape X) p o). cbn in *. exact G.
      + right. rewrite G. reflexivity.
    - apply pu_on, pu_push.
    - apply pu_on, pu_pop.
    - apply pu_on, pu_insert.
    - apply pu_on, pu_remove.
    - apply pu_on, pu_swap_remove.
    - apply pu_on, pu_resize.
    - apply pu_on, pu_get.
    - apply pu_on, pu_set.
    - apply pu_on, pu_extend.
    - apply pu_on, pu_retain.
    - apply pu_on, pu_for_each.
    - apply pu_on, pu_any.
    - apply pu_on, pu_all.
    - apply pu_on, pu_each.
    - apply pu_on. intros s. apply pu_iter.
    - apply pu_on, pu_hash.
    - apply pu_new, pu_build, pu_with_value.
    - apply pu_new, pu_build, pu_extend.
    - apply pu_new, pu_build, pu_extend.
    - apply pu_new, pu_build, pu_extend.
  Qed.
  Theorem pu_play k n : forall seen s, ~ In (MRes RPanic) (fst (w_play D X n k seen s)) -> w_play R X n k seen s = w_play D X n k seen s.
  Proof.
    induction n as [|n IH]; intros seen s H; cbn [w_play] in *; [reflexivity|]. destruct (k seen (snd s)) as [o|]; [|reflexivity].
    destruct (pu_step s o) as [G|G].
    - exfalso. destruct (w_step D X s o) as [x s']. cbn in G. subst x. destruct (w_play D X n k (seen ++ [MRes RPanic]) s'). apply H. left. reflexivity.
    - rewrite <- G. destruct (w_step D X s o) as [x s']. specialize (IH (seen ++ [x]) s').
      destruct x as [x| | |]; try reflexivity; (destruct (w_play D X n k _ s') as [rs s'']; cbn [fst] in *; rewrite IH; [reflexivity|]; intros Y; apply H; right; exact Y).
  Qed.
End P.
