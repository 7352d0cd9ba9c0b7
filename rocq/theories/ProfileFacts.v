(** ProfileFacts.v -- proofs for PropProfile.v. *)
From Verif Require Export Profile.
From Coq Require Import ZifyBool ZifyNat ZifyN.
Open Scope N_scope.
Set Implicit Arguments.

Lemma sv_refl A (o : outcome A) : same_value o o. Proof. right. reflexivity. Qed.
Lemma sm_refl S A (m : M S A) : same_method m m. Proof. intros s. right. reflexivity. Qed.
Lemma sv_bind A B (d r : outcome A) (f g : A -> outcome B) : same_value d r -> (forall a, same_value (f a) (g a)) -> same_value (obind d f) (obind r g).
Proof. intros [-> | ->] H; [left; reflexivity|]. destruct r; cbn; try apply sv_refl. apply H. Qed.
Lemma sm_bind S A B (d r : M S A) (f g : A -> M S B) : same_method d r -> (forall a, same_method (f a) (g a)) -> same_method (bind d f) (bind r g).
Proof.
  intros H K s. unfold bind. destruct (H s) as [G|G].
  - left. destruct (d s) as [o s']. cbn in G. subst o. reflexivity.
  - rewrite G. destruct (r s) as [[a|k| |] s']; try (right; reflexivity). apply K.
Qed.
Lemma sm_lift S A (d r : outcome A) : same_value d r -> same_method (S := S) (lift d) (lift r).
Proof. intros H s. unfold lift. cbn. destruct H as [-> | ->]; [left|right]; reflexivity. Qed.
Lemma sm_reads S A (d r : S -> outcome A) : (forall s, same_value (d s) (r s)) -> same_method (reads d) (reads r).
Proof. intros H s. unfold reads. cbn. destruct (H s) as [-> | ->]; [left|right]; reflexivity. Qed.
Lemma sm_fun S A (d r : M S A) : (forall s, fst (d s) = Panic POverflow \/ d s = r s) -> same_method d r. Proof. auto. Qed.
Lemma sm_fst S R A (d r : M S A) : same_method d r -> same_method (@on_fst S R A d) (on_fst r).
Proof. intros H [s1 s2]. unfold on_fst. cbn. destruct (H s1) as [G|G]; [left; destruct (d s1); exact G|right; rewrite G; reflexivity]. Qed.
Lemma sm_snd S R A (d r : M R A) : same_method d r -> same_method (@on_snd S R A d) (on_snd r).
Proof. intros H [s1 s2]. unfold on_snd. cbn. destruct (H s2) as [G|G]; [left; destruct (d s2); exact G|right; rewrite G; reflexivity]. Qed.
Lemma sm_for S n : forall i (f g : N -> M S unit), (forall i, same_method (f i) (g i)) -> same_method (for_range n i f) (for_range n i g).
Proof. induction n as [|n IH]; intros i f g H; cbn [for_range]; [apply sm_refl|]. apply sm_bind; [apply H|]. intros. apply IH. exact H. Qed.

Ltac nrm := repeat match goal with
  | |- context [usize_max (debug ?c)] => change (usize_max (debug c)) with (usize_max c)
  | |- context [usize_max (release ?c)] => change (usize_max (release c)) with (usize_max c)
  | |- context [W (debug ?c)] => change (W (debug c)) with (W c)
  | |- context [W (release ?c)] => change (W (release c)) with (W c)
  | |- context [small (debug ?c)] => change (small (debug c)) with (small c)
  | |- context [small (release ?c)] => change (small (release c)) with (small c)
  | |- context [EPB (debug ?c) ?E] => change (EPB (debug c) E) with (EPB c E)
  | |- context [EPB (release ?c) ?E] => change (EPB (release c) E) with (EPB c E)
  end.
Ltac ag := nrm;
  repeat first
    [ progress intros
    | solve [auto with prof]
    | apply sv_bind | apply sm_bind | apply sm_lift | apply sm_reads | apply sm_fst | apply sm_snd | apply sm_for
    | match goal with
      | |- same_value (if ?b then _ else _) _ => destruct b
      | |- same_method (if ?b then _ else _) _ => destruct b
      | |- same_value (match ?o with Some _ => _ | None => _ end) _ => destruct o
      | |- same_method (match ?o with Some _ => _ | None => _ end) _ => destruct o
      | |- same_method (match ?o with (_, _) => _ end) _ => destruct o
      end
    | apply sv_refl | apply sm_refl ].

Section P.
  Context {T : Type} (c : cfg) (E : enumlike T).
  Local Notation D := (debug c).
  Local Notation R := (release c).

  Lemma p_uadd a b : same_value (uadd D a b) (uadd R a b). Proof. unfold uadd. cbn -[usize_max]. change (usize_max D) with (usize_max c). change (usize_max R) with (usize_max c). destruct (_ <=? _); [right|left]; reflexivity. Qed.
  Lemma p_usub a b : same_value (usub D a b) (usub R a b). Proof. unfold usub. destruct (_ <=? _); [right|left]; reflexivity. Qed.
  Lemma p_umul a b : same_value (umul D a b) (umul R a b). Proof. unfold umul. change (usize_max D) with (usize_max c). change (usize_max R) with (usize_max c). destruct (_ <=? _); [right|left]; reflexivity. Qed.
  Lemma p_shl a b : same_value (shl D a b) (shl R a b). Proof. unfold shl. change (W D) with (W c). change (W R) with (W c). destruct (_ <? _); [right|left]; reflexivity. Qed.
  Lemma p_shr a b : same_value (shr D a b) (shr R a b). Proof. unfold shr. change (W D) with (W c). change (W R) with (W c). destruct (_ <? _); [right|left]; reflexivity. Qed.
  Lemma p_bmul a b : same_value (bmul D a b) (bmul R a b). Proof. unfold bmul. change (W D) with (W c). change (W R) with (W c). destruct (_ <? _); [right|left]; reflexivity. Qed.
  Hint Resolve p_uadd p_usub p_umul p_shl p_shr p_bmul : prof.

  Lemma p_get_u i v : same_value (get_raw_unchecked D E i v) (get_raw_unchecked R E i v).
  Proof. unfold get_raw_unchecked, block_index. change (EPB D E) with (EPB c E). change (EPB R E) with (EPB c E). ag. Qed.
  Hint Resolve p_get_u : prof.
  Lemma p_set_u i d : same_method (set_raw_unchecked D E i d) (set_raw_unchecked R E i d).
  Proof. unfold set_raw_unchecked, block_index. ag. Qed.
  Hint Resolve p_set_u : prof.
  Lemma p_get_raw i v : same_value (get_raw D E i v) (get_raw R E i v). Proof. unfold get_raw. ag. Qed.
  Hint Resolve p_get_raw : prof.
  Lemma p_set_raw i d : same_method (set_raw D E i d) (set_raw R E i d).
  Proof. unfold set_raw. intros v. destruct (_ <=? _); [right; reflexivity|apply p_set_u]. Qed.
  Hint Resolve p_set_raw : prof.
  Lemma p_get i v : same_value (get D E i v) (get R E i v). Proof. unfold get. ag. Qed.
  Hint Resolve p_get : prof.
  Lemma p_set i x : same_method (set D E i x) (set R E i x). Proof. unfold set. ag. Qed.
  Hint Resolve p_set : prof.
  Lemma p_reserve k : same_method (reserve D E k) (reserve R E k).
  Proof. unfold reserve. ag. Qed.
  Hint Resolve p_reserve : prof.
  Lemma p_shrink : same_method (shrink_to_fit D E) (shrink_to_fit R E). Proof. apply sm_refl. Qed.
  Lemma p_swap a b : same_method (swap D E a b) (swap R E a b). Proof. unfold swap. ag. Qed.
  Hint Resolve p_swap : prof.
  Lemma p_push x : same_method (push D E x) (push R E x). Proof. unfold push. ag. Qed.
  Hint Resolve p_push : prof.
  Lemma p_pop : same_method (pop D E) (pop R E).
  Proof.
    intros v. unfold pop. destruct (is_empty v); [right; reflexivity|].
    match goal with |- fst (?f v) = _ \/ ?f v = ?g v => assert (H : same_method f g) by ag; apply H end.
  Qed.
  Hint Resolve p_pop : prof.
  Lemma p_swap_remove i : same_method (swap_remove D E i) (swap_remove R E i). Proof. unfold swap_remove. ag. Qed.
  Lemma p_insert_shift b z : same_value (insert_shift D E b z) (insert_shift R E b z). Proof. unfold insert_shift. ag. Qed.
  Lemma p_remove_shift b z : same_value (remove_shift D E b z) (remove_shift R E b z). Proof. unfold remove_shift. ag. Qed.
  Hint Resolve p_insert_shift p_remove_shift : prof.
  Lemma p_insert_slow n : forall i prev, same_method (insert_slow D E n i prev) (insert_slow R E n i prev).
  Proof. induction n as [|n IH]; intros; cbn [insert_slow]; ag. Qed.
  Lemma p_insert_blocks n : forall i prev, same_method (insert_blocks D E n i prev) (insert_blocks R E n i prev).
  Proof. induction n as [|n IH]; intros; cbn [insert_blocks]; ag. Qed.
  Lemma p_remove_slow n : forall i, same_method (remove_slow D E n i) (remove_slow R E n i).
  Proof. induction n as [|n IH]; intros; cbn [remove_slow]; ag. Qed.
  Lemma p_remove_blocks n : forall i prev, same_method (remove_blocks D E n i prev) (remove_blocks R E n i prev).
  Proof. induction n as [|n IH]; intros; cbn [remove_blocks]; ag. Qed.
  Hint Resolve p_insert_slow p_insert_blocks p_remove_slow p_remove_blocks : prof.
  Lemma p_insert i x : same_method (insert D E i x) (insert R E i x). Proof. unfold insert, block_index. cbn [fst]. ag. Qed.
  Lemma p_remove i : same_method (remove D E i) (remove R E i). Proof. unfold remove, block_index. cbn [fst]. ag. Qed.
  Lemma p_retain_loop St (f : St -> T -> option (bool * St)) n : forall i s st, same_method (retain_loop D E f n i s st) (retain_loop R E f n i s st).
  Proof. induction n as [|n IH]; intros; cbn [retain_loop]; ag. Qed.
  Hint Resolve p_retain_loop : prof.
  Lemma p_retain St (f : St -> T -> option (bool * St)) st : same_method (retain D E f st) (retain R E f st). Proof. unfold retain. ag. Qed.
  Lemma p_each_loop St (f : St -> T -> option (T * St)) n : forall i st, same_method (for_each_loop D E f n i st) (for_each_loop R E f n i st).
  Proof. induction n as [|n IH]; intros; cbn [for_each_loop]; ag. Qed.
  Hint Resolve p_each_loop : prof.
  Lemma p_for_each St (f : St -> T -> option (T * St)) st : same_method (for_each D E f st) (for_each R E f st). Proof. unfold for_each. ag. Qed.
  Lemma p_known n : forall i sl pan l, same_method (extend_known D E n i sl pan l) (extend_known R E n i sl pan l).
  Proof. induction n as [|n IH]; intros i sl pan [|x l]; cbn [extend_known]; ag. Qed.
  Lemma p_rest pan l : same_method (extend_rest D E pan l) (extend_rest R E pan l).
  Proof. induction l as [|x l IH]; cbn [extend_rest]; ag. Qed.
  Hint Resolve p_known p_rest : prof.
  Lemma p_extend it : same_method (extend D E it) (extend R E it). Proof. unfold extend. ag. Qed.
  Hint Resolve p_extend : prof.
  Lemma p_fill_pattern n : forall b i, same_value (fill_pattern D n b i) (fill_pattern R n b i).
  Proof. induction n as [|n IH]; intros; cbn [fill_pattern]; [apply sv_refl|]. change (W D) with (W c). change (W R) with (W c). ag. Qed.
  Hint Resolve p_fill_pattern : prof.
  Lemma p_fill n b : same_method (fill_blocks D n b) (fill_blocks R n b). Proof. unfold fill_blocks. ag. Qed.
  Hint Resolve p_fill : prof.
  Lemma p_with_value x n : same_method (extend_with_value D E x n) (extend_with_value R E x n).
  Proof. unfold extend_with_value. change (EPB D E) with (EPB c E). change (EPB R E) with (EPB c E). ag. Qed.
  Hint Resolve p_with_value : prof.
  Lemma p_resize n x : same_method (resize D E n x) (resize R E n x). Proof. unfold resize. ag. Qed.
  Lemma p_build A (d r : M ev A) : same_method d r -> same_value (build D d) (build R r).
  Proof.
    intros H. unfold build. change (ev_new R) with (ev_new D). destruct (H (ev_new D)) as [G|G].
    - left. destruct (d (ev_new D)) as [o s]. cbn in G. subst o. reflexivity.
    - rewrite G. apply sv_refl.
  Qed.
  Hint Resolve p_build : prof.
  Lemma p_iter_item v o : same_value (iter_item D E v o) (iter_item R E v o). Proof. unfold iter_item. ag. Qed.
  Hint Resolve p_iter_item : prof.
  Lemma p_collect v n : forall r, same_value (iter_collect D E v n r) (iter_collect R E v n r).
  Proof.
    induction n as [|n IH]; intros r; cbn [iter_collect]; unfold iter_next; destruct (range_next r) as [o r']; destruct (p_iter_item v o) as [->| ->]; try (left; reflexivity);
      destruct (iter_item R E v o) as [[x|]| | |]; try apply sv_refl. ag.
  Qed.
  Hint Resolve p_collect : prof.
  Lemma p_to_vec v : same_value (to_vec D E v) (to_vec R E v). Proof. unfold to_vec. ag. Qed.
  Lemma p_one : same_value (one_mask D E) (one_mask R E). Proof. unfold one_mask. ag. Qed.
  Hint Resolve p_one : prof.
  Lemma p_xmask x : same_value (x_mask D E x) (x_mask R E x). Proof. unfold x_mask. ag. Qed.
  Hint Resolve p_xmask : prof.
  Lemma p_any_loop n : forall i one high xm v, same_value (any_loop D n i one high xm v) (any_loop R n i one high xm v).
  Proof. intros. apply sv_refl. Qed.
  Hint Resolve p_any_loop : prof.
  Lemma p_any x v : same_value (any D E x v) (any R E x v).
  Proof. unfold any, block_index. ag. Qed.
  Lemma p_all x v : same_value (all D E x v) (all R E x v).
  Proof. unfold all, block_index. ag. Qed.
  Lemma p_eq_loop n : forall i v w, same_value (eq_loop D E n i v w) (eq_loop R E n i v w).
  Proof. induction n as [|n IH]; intros; cbn [eq_loop]; ag. Qed.
  Hint Resolve p_eq_loop : prof.
  Lemma p_eq v w : same_value (eq D E v w) (eq R E v w). Proof. unfold eq. ag. Qed.
  Lemma p_hash_loop n : forall i v, same_value (hash_loop D E n i v) (hash_loop R E n i v).
  Proof. induction n as [|n IH]; intros; cbn [hash_loop]; ag. Qed.
  Hint Resolve p_hash_loop : prof.
  Lemma p_hash v : same_value (hash D E v) (hash R E v). Proof. unfold hash. ag. Qed.
  Lemma p_append : same_method (append D E) (append R E). Proof. unfold append. ag. Qed.
  Lemma p_split_off at_ : same_method (split_off D E at_) (split_off R E at_).
  Proof.
    intros v. unfold split_off. destruct (at_ <=? len v); [|right; reflexivity].
    match goal with |- fst (?f v) = _ \/ ?f v = ?g v => assert (H : same_method f g); [|apply H] end.
    apply sm_bind; [ag|]. intros k. apply sm_bind; [ag|]. intros w.
    match goal with |- same_method (let '(_, _) := ?d w in _) (let '(_, _) := ?r w in _) => assert (H : same_method d r) by ag; destruct (H w) as [G|G] end.
    - match goal with |- same_method (let '(_, _) := ?x in _) _ => destruct x as [o s]; cbn in G; subst o end. intros u. left. reflexivity.
    - rewrite G. match goal with |- same_method (let '(_, _) := ?x in _) _ => destruct x as [o s] end. ag.
  Qed.

  Lemma p_m_iter v calls : forall r, same_value (m_iter D E v r calls) (m_iter R E v r calls).
  Proof.
    induction calls as [|ca calls IH]; intros r; cbn [m_iter]; [apply sv_refl|].
    destruct ca; unfold iter_next, iter_next_back, iter_nth;
      try match goal with |- context [range_next r] => destruct (range_next r) | |- context [range_next_back r] => destruct (range_next_back r) | |- context [range_nth ?n r] => destruct (range_nth n r) end; ag.
  Qed.


  Lemma p_on A p r (d g : M ev A) k : same_method d g -> fst (m_on (T := T) p r d k) = MRes RPanic \/ m_on (T := T) p r d k = m_on p r g k.
  Proof.
    intros H. unfold m_on. destruct (nth_error p r) as [v|]; [|right; reflexivity]. destruct (H v) as [G|G].
    - left. destruct (d v) as [o v']. cbn in *. subst o. reflexivity.
    - right. rewrite G. reflexivity.
  Qed.
  Lemma p_read A p r (d g : ev -> outcome A) k : (forall v, same_value (d v) (g v)) -> fst (m_read (T := T) p r d k) = MRes RPanic \/ m_read (T := T) p r d k = m_read p r g k.
  Proof.
    intros H. unfold m_read. destruct (nth_error p r) as [v|]; [|right; reflexivity]. destruct (H v) as [-> | ->]; [left|right]; reflexivity.
  Qed.
  Lemma p_new p (d g : outcome ev) : same_value d g -> fst (m_new (T := T) p d) = MRes RPanic \/ m_new (T := T) p d = m_new p g.
  Proof. intros [-> | ->]; [left|right]; reflexivity. Qed.
  Theorem p_step p o : fst (m_step D E p o) = MRes RPanic \/ m_step D E p o = m_step R E p o.
  Proof.
    destruct o; cbn [m_step].
    - right. reflexivity.
    - apply p_new. apply sv_refl.
    - apply p_new. unfold from_elem. apply p_build, p_with_value.
    - apply p_new. unfold from_slice. apply p_build, p_extend.
    - apply p_new. unfold from_iter. apply p_build, p_extend.
    - right. reflexivity.
    - apply p_on, p_push.
    - apply p_on, p_pop.
    - apply p_on, p_insert.
    - apply p_on, p_remove.
    - apply p_on, p_swap.
    - apply p_on, p_swap_remove.
    - apply p_on, sm_refl.
    - apply p_on, sm_refl.
    - apply p_on, p_resize.
    - apply p_read. intros v. apply p_get.
    - apply p_on, p_set.
    - apply p_on, p_reserve.
    - apply p_on, p_shrink.
    - apply p_on, p_extend.
    - destruct (nth_error p r) as [v|]; [|right; reflexivity]. destruct (nth_error p r2) as [w|]; [|right; reflexivity].
      destruct (Nat.eqb r r2); [right; reflexivity|]. destruct (p_append (v, w)) as [G|G].
      + left. destruct (append D E (v, w)) as [o s]. cbn in *. subst o. reflexivity.
      + right. rewrite G. reflexivity.
    - destruct (nth_error p r) as [v|]; [|right; reflexivity]. destruct (p_split_off at_ v) as [G|G].
      + left. destruct (split_off D E at_ v) as [o s]. cbn in *. subst o. reflexivity.
      + right. rewrite G. reflexivity.
    - apply p_on, p_retain.
    - apply p_on, p_for_each.
    - apply p_read. intros v. apply p_any.
    - apply p_read. intros v. apply p_all.
    - destruct (nth_error p r) as [v|]; [|right; reflexivity]. destruct (nth_error p r2) as [w|]; [|right; reflexivity].
      destruct (p_eq v w) as [-> | ->]; [left|right]; reflexivity.
    - apply p_read. intros v. apply p_hash.
    - apply p_read. intros v. apply p_to_vec.
    - apply p_read. intros v. apply p_m_iter.
    - apply p_read. intros v. apply sv_refl.
    - apply p_read. intros v. apply sv_refl.
  Qed.
  Theorem p_run prog : forall p, ~ In (MRes RPanic) (fst (m_run D E p prog)) -> m_run R E p prog = m_run D E p prog.
  Proof.
    induction prog as [|o prog IH]; intros p H; cbn [m_run] in *; [reflexivity|]. destruct (p_step p o) as [G|G].
    - exfalso. destruct (m_step D E p o) as [r p']. cbn in G. subst r. destruct (m_run D E p' prog). apply H. left. reflexivity.
    - rewrite <- G. destruct (m_step D E p o) as [r p']. cbv iota beta in *. specialize (IH p'). destruct (m_run D E p' prog) as [rs p'']. cbn [fst] in *.
      destruct r; cbn [fst] in *; try reflexivity; rewrite IH; auto; intros X; apply H; right; exact X.
  Qed.
End P.
