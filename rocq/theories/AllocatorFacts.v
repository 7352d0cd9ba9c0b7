(** AllocatorFacts.v -- proofs for PropAllocator.v. *)
From Verif Require Export Allocator.
From Coq Require Import ZifyBool ZifyNat ZifyN.
Open Scope N_scope.
Set Implicit Arguments.

Lemma alike_refl v : alike v v. Proof. split; reflexivity. Qed.
Notation oeq := (answers_alike Logic.eq).
Notation act := (acts_alike alike Logic.eq).
Notation act2 := (acts_alike alike2 Logic.eq).
Lemma aa_refl A (o : outcome A) : oeq o o.
Proof. unfold answers_alike, out_of_memory. destruct o; auto. Qed.
Lemma aa_eq A (o o' : outcome A) : o = o' -> oeq o o'. Proof. intros ->. apply aa_refl. Qed.
Lemma aa_bind A B (Q : A -> A -> Prop) (Q' : B -> B -> Prop) (o o' : outcome A) f f' : answers_alike Q o o' -> (forall a a', Q a a' -> answers_alike Q' (f a) (f' a')) -> answers_alike Q' (obind o f) (obind o' f').
Proof.
  unfold answers_alike at 1 3. intros [[->| ->]|[[->| ->]|H]] K; cbn; try (unfold out_of_memory; tauto).
  destruct o, o'; cbn; try contradiction; [exact (K _ _ H)|subst|]; auto.
Qed.
Lemma at_lift S A (R : S -> S -> Prop) (Q : A -> A -> Prop) o o' : answers_alike Q o o' -> acts_alike R Q (lift o) (lift o').
Proof. intros H s s' Hs. right. right. split; [exact H|exact Hs]. Qed.
Lemma at_reads S A (R : S -> S -> Prop) (Q : A -> A -> Prop) f f' : (forall s s', R s s' -> answers_alike Q (f s) (f' s')) -> acts_alike R Q (reads f) (reads f').
Proof. intros H s s' Hs. right. right. split; [exact (H _ _ Hs)|exact Hs]. Qed.
Lemma at_ret S A (R : S -> S -> Prop) (Q : A -> A -> Prop) a a' : Q a a' -> acts_alike R Q (ret a) (ret a').
Proof. intros H s s' Hs. right. right. split; [right; right; exact H|exact Hs]. Qed.
Lemma at_bind S A B (R : S -> S -> Prop) (Q : A -> A -> Prop) (Q' : B -> B -> Prop) m m' f f' : acts_alike R Q m m' ->
  (forall a a', Q a a' -> acts_alike R Q' (f a) (f' a')) -> acts_alike R Q' (bind m f) (bind m' f').
Proof.
  intros H K s s' Hs. unfold bind. specialize (H s s' Hs). destruct (m s) as [o t]; destruct (m' s') as [o' t']; cbn in H.
  destruct H as [H|[H|[H Ht]]].
  - left. destruct H as [->| ->]; [left|right]; reflexivity.
  - right. left. destruct H as [->| ->]; [left|right]; reflexivity.
  - destruct H as [H|[H|H]].
    + left. destruct H as [->| ->]; [left|right]; reflexivity.
    + right. left. destruct H as [->| ->]; [left|right]; reflexivity.
    + destruct o, o'; try contradiction; cbn.
      * exact (K _ _ H _ _ Ht).
      * subst. right. right. split; [right; right; reflexivity|exact Ht].
      * right. right. split; [right; right; exact I|exact Ht].
Qed.
Lemma at_fst A (m m' : M ev A) (Q : A -> A -> Prop) : acts_alike alike Q m m' -> acts_alike alike2 Q (on_fst m) (on_fst m').
Proof.
  intros H s s' [H1 H2]. specialize (H _ _ H1). unfold on_fst. destruct (m (fst s)), (m' (fst s')). cbn in *. destruct H as [H|[H|[H Ht]]]; auto.
  right. right. split; [exact H|split; assumption].
Qed.
Lemma at_snd A (m m' : M ev A) (Q : A -> A -> Prop) : acts_alike alike Q m m' -> acts_alike alike2 Q (on_snd m) (on_snd m').
Proof.
  intros H s s' [H1 H2]. specialize (H _ _ H2). unfold on_snd. destruct (m (snd s)), (m' (snd s')). cbn in *. destruct H as [H|[H|[H Ht]]]; auto.
  right. right. split; [exact H|split; assumption].
Qed.
Lemma at_for S (R : S -> S -> Prop) n : forall i f f', (forall i, acts_alike R Logic.eq (f i) (f' i)) -> acts_alike R Logic.eq (for_range n i f) (for_range n i f').
Proof. induction n as [|n IH]; intros i f f' H; cbn [for_range]; [apply at_ret; reflexivity|]. eapply at_bind; [apply H|]. intros. apply IH. exact H. Qed.
(** a method that looks at the blocks and the length only *)
Lemma at_set_len n : act (set_len n) (set_len n).
Proof. intros v w [H1 H2]. right. right. split; [apply aa_refl|]. split; [exact H1|reflexivity]. Qed.

Ltac alk := match goal with H : alike ?v ?w |- _ => let d := fresh "d" in let n := fresh "n" in
  destruct v as [[d ?] n]; destruct w as [[? ?] ?]; destruct H as [? ?]; cbn [storage data num] in *; subst end.
Ltac al :=
  repeat first
    [ progress intros
    | progress subst
    | solve [eauto 3 with alk]
    | apply aa_refl
    | eapply aa_bind | eapply at_bind | apply at_lift | apply at_reads | apply at_fst | apply at_snd | apply at_for | apply at_set_len
    | match goal with
      | |- answers_alike _ (if ?b then _ else _) (if ?b' then _ else _) => change b' with b; destruct b
      | |- acts_alike _ _ (if ?b then _ else _) (if ?b' then _ else _) => change b' with b; destruct b
      | |- answers_alike _ (match ?o with Some _ => _ | None => _ end) _ => destruct o
      | |- acts_alike _ _ (match ?o with Some _ => _ | None => _ end) _ => destruct o
      | |- acts_alike _ _ (match ?o with (_, _) => _ end) _ => destruct o
      end
    | apply aa_refl | (apply at_ret; reflexivity)
    | alk ].

Lemma mk_alike d k1 k2 n : alike (mkEv (mkRvec d k1) n) (mkEv (mkRvec d k2) n). Proof. split; reflexivity. Qed.
Global Hint Resolve mk_alike : alk.
Section A.
  Context {T : Type} (c : cfg) (E : enumlike T) (k1 k2 : container).
  Local Notation C1 := (over k1 c).
  Local Notation C2 := (over k2 c).

  Definition rv_alike (s s' : rvec) : Prop := data s = data s'.
  Lemma a_ensure n s s' : rv_alike s s' -> answers_alike rv_alike (vec_ensure C1 n s) (vec_ensure C2 n s').
  Proof.
    intros H. unfold vec_ensure. destruct (n <=? vcap s), (n <=? vcap s'); try (right; right; exact H);
      repeat (match goal with |- context [if ?b then _ else _] => destruct b end); unfold answers_alike, out_of_memory; auto; right; right; exact H.
  Qed.
  Lemma a_on f f' : (forall s s', rv_alike s s' -> answers_alike rv_alike (f s) (f' s')) -> act (on_storage f) (on_storage f').
  Proof.
    intros H v w [H1 H2]. specialize (H (storage v) (storage w) H1). unfold on_storage, answers_alike in *.
    destruct H as [[H|H]|[[H|H]|H]]; try (rewrite H; unfold out_of_memory; cbn; auto; fail).
    destruct (f (storage v)), (f' (storage w)); try contradiction; cbn; right; right; (split; [right; right; cbn; auto|]); split; assumption.
  Qed.
  Lemma a_push x s s' : rv_alike s s' -> answers_alike rv_alike (vec_push C1 x s) (vec_push C2 x s').
  Proof.
    intros H. unfold vec_push. unfold vlen at 1 2. rewrite <- H. eapply aa_bind; [apply a_ensure; exact H|]. intros a a' G. right. right. unfold rv_alike in *. cbn. congruence.
  Qed.
  Lemma a_resize n x s s' : rv_alike s s' -> answers_alike rv_alike (vec_resize C1 n x s) (vec_resize C2 n x s').
  Proof.
    intros H. unfold vec_resize, vlen. rewrite <- H. destruct (_ <=? _); [right; right; unfold rv_alike in *; cbn; congruence|].
    eapply aa_bind; [apply a_ensure; exact H|]. intros a a' G. right. right. unfold rv_alike in *. cbn. congruence.
  Qed.
  Lemma a_extend l s s' : rv_alike s s' -> answers_alike rv_alike (vec_extend_from C1 l s) (vec_extend_from C2 l s').
  Proof.
    intros H. unfold vec_extend_from, vlen. rewrite <- H.
    eapply aa_bind; [apply a_ensure; exact H|]. intros a a' G. right. right. unfold rv_alike in *. cbn. congruence.
  Qed.
  Lemma a_reserve n s s' : rv_alike s s' -> answers_alike rv_alike (vec_reserve C1 n s) (vec_reserve C2 n s').
  Proof. intros H. unfold vec_reserve, vlen. rewrite <- H. apply a_ensure. exact H. Qed.


  Ltac rd := intros H; alk; apply aa_eq; reflexivity.
  Lemma r_get_u i v w : alike v w -> oeq (get_raw_unchecked C1 E i v) (get_raw_unchecked C2 E i w). Proof. rd. Qed.
  Lemma r_get_raw i v w : alike v w -> oeq (get_raw C1 E i v) (get_raw C2 E i w). Proof. rd. Qed.
  Lemma r_get i v w : alike v w -> oeq (get C1 E i v) (get C2 E i w). Proof. rd. Qed.
  Lemma r_load i v w : alike v w -> oeq (load i v) (load i w). Proof. rd. Qed.
  Lemma r_load_u i v w : alike v w -> oeq (load_unchecked i v) (load_unchecked i w). Proof. rd. Qed.
  Lemma r_len v w : alike v w -> oeq (Ret (len v)) (Ret (len w)). Proof. rd. Qed.
  Lemma r_num v w : alike v w -> oeq (Ret (num v)) (Ret (num w)). Proof. rd. Qed.
  Lemma r_unwrap A (o o' : option A) : o = o' -> oeq (unwrap o) (unwrap o'). Proof. intros ->. apply aa_refl. Qed.
  Hint Resolve r_get_u r_get_raw r_get r_load r_load_u r_len r_num r_unwrap : alk.
  Lemma r_store i b : act (store i b) (store i b).
  Proof. intros v w H. alk. unfold store, vlen. cbn. right. right. destruct (_ <? _); (split; [apply aa_refl|split; reflexivity]). Qed.
  Lemma r_store_u i b : act (store_unchecked i b) (store_unchecked i b).
  Proof. intros v w H. alk. unfold store_unchecked, vlen. cbn. right. right. destruct (_ <? _); (split; [apply aa_refl|split; reflexivity]). Qed.
  Hint Resolve r_store r_store_u : alk.
  Lemma r_set_u i d : act (set_raw_unchecked C1 E i d) (set_raw_unchecked C2 E i d).
  Proof. unfold set_raw_unchecked, block_index. al. Qed.
  Hint Resolve r_set_u : alk.
  Lemma at_if S A (R : S -> S -> Prop) (Q : A -> A -> Prop) (b b' : S -> bool) m m' n n' : (forall s s', R s s' -> b s = b' s') ->
    acts_alike R Q m m' -> acts_alike R Q n n' -> acts_alike R Q (fun s => if b s then m s else n s) (fun s => if b' s then m' s else n' s).
  Proof. intros H K L s s' Hs. rewrite (H _ _ Hs). destruct (b' s'); [exact (K _ _ Hs)|exact (L _ _ Hs)]. Qed.
  Lemma at_fun S A (R : S -> S -> Prop) (o : outcome A) (g g' : S -> S) : (forall s s', R s s' -> R (g s) (g' s')) ->
    acts_alike R Logic.eq (fun s => (o, g s)) (fun s => (o, g' s)).
  Proof. intros H s s' Hs. right. right. split; [apply aa_refl|exact (H _ _ Hs)]. Qed.
  Lemma r_set_raw i d : act (set_raw C1 E i d) (set_raw C2 E i d).
  Proof.
    apply (at_if (R := alike) (fun v => len v <=? i) (fun v => len v <=? i)); [intros; alk; reflexivity| |apply r_set_u].
    apply at_fun. auto.
  Qed.
  Hint Resolve r_set_raw : alk.
  Lemma r_set i x : act (set C1 E i x) (set C2 E i x). Proof. apply r_set_raw. Qed.
  Hint Resolve r_set : alk.
  Lemma r_reserve k : act (reserve C1 E k) (reserve C2 E k).
  Proof. unfold reserve. al. apply a_on. intros. apply a_resize. assumption. Qed.
  Hint Resolve r_reserve : alk.
  Lemma r_fix : act (fix_storage C1 E) (fix_storage C2 E).
  Proof. apply at_fun. intros. alk. apply mk_alike. Qed.
  Hint Resolve r_fix : alk.
  Lemma r_shrink : act (shrink_to_fit C1 E) (shrink_to_fit C2 E).
  Proof.
    unfold shrink_to_fit. eapply at_bind; [apply r_fix|]. intros. apply at_fun. intros. alk. unfold vec_shrink_to_fit.
    cbn -[N.ltb N.leb vlen]. repeat match goal with |- context [if ?b then _ else _] => destruct b end; split; reflexivity.
  Qed.
  Lemma r_truncate n : act (truncate n) (truncate n).
  Proof. apply (at_if (R := alike) (fun v => n <? num v) (fun v => n <? num v)); [intros; alk; reflexivity|apply at_set_len|apply at_fun; auto]. Qed.
  Hint Resolve r_truncate : alk.
  Lemma r_clear : act clear clear. Proof. apply r_truncate. Qed.
  Hint Resolve r_clear : alk.
  Lemma r_swap a b : act (swap C1 E a b) (swap C2 E a b). Proof. unfold swap. al. Qed.
  Hint Resolve r_swap : alk.
  Lemma r_grow : act (grow_if_needed C1 E) (grow_if_needed C2 E).
  Proof.
    apply (at_if (R := alike) (fun v => (len v mod EPB C1 E =? 0) && (blocks_for_elements C1 E (len v) =? vlen (storage v)))
      (fun v => (len v mod EPB C2 E =? 0) && (blocks_for_elements C2 E (len v) =? vlen (storage v)))); [intros; alk; reflexivity| |apply at_fun; auto].
    apply a_on. intros. apply a_push. assumption.
  Qed.
  Hint Resolve r_grow : alk.
  Lemma r_push x : act (push C1 E x) (push C2 E x). Proof. unfold push. al. Qed.
  Hint Resolve r_push : alk.
  Lemma r_pop : act (pop C1 E) (pop C2 E).
  Proof.
    unfold pop. apply (@at_if _ _ alike Logic.eq is_empty is_empty (fun x => (Ret None, x)) (fun x => (Ret None, x)));
      [intros; alk; reflexivity|apply at_fun; auto|].
    al; apply aa_eq; alk; reflexivity.
  Qed.
  Hint Resolve r_pop : alk.
  Lemma r_swap_remove i : act (swap_remove C1 E i) (swap_remove C2 E i).
  Proof. unfold swap_remove. al; try (apply aa_eq; alk; reflexivity). Qed.
  Lemma r_insert_slow n : forall i prev, act (insert_slow C1 E n i prev) (insert_slow C2 E n i prev).
  Proof. induction n as [|n IH]; intros; cbn [insert_slow]; al. Qed.
  Lemma r_insert_blocks n : forall i prev, act (insert_blocks C1 E n i prev) (insert_blocks C2 E n i prev).
  Proof. induction n as [|n IH]; intros; cbn [insert_blocks]; al. Qed.
  Lemma r_remove_slow n : forall i, act (remove_slow C1 E n i) (remove_slow C2 E n i).
  Proof. induction n as [|n IH]; intros; cbn [remove_slow]; al. Qed.
  Lemma r_remove_blocks n : forall i prev, act (remove_blocks C1 E n i prev) (remove_blocks C2 E n i prev).
  Proof. induction n as [|n IH]; intros; cbn [remove_blocks]; al. Qed.
  Hint Resolve r_insert_slow r_insert_blocks r_remove_slow r_remove_blocks : alk.
  Lemma r_eq A (f : ev -> A) (g : ev -> A) v w : (forall d k1 k2 n, f (mkEv (mkRvec d k1) n) = g (mkEv (mkRvec d k2) n)) -> alike v w -> f v = g w.
  Proof. intros G H. alk. apply G. Qed.
  Ltac fin := try (apply aa_eq; alk; reflexivity).
  Lemma r_insert i x : act (insert C1 E i x) (insert C2 E i x).
  Proof. unfold insert, block_index. cbn [fst snd]. al; fin. Qed.
  Lemma r_remove i : act (remove C1 E i) (remove C2 E i).
  Proof. unfold remove, block_index. cbn [fst snd]. al; fin. Qed.
  Lemma r_retain_loop St (f : St -> T -> option (bool * St)) n : forall i s st, act (retain_loop C1 E f n i s st) (retain_loop C2 E f n i s st).
  Proof. induction n as [|n IH]; intros; cbn [retain_loop]; al; fin. Qed.
  Hint Resolve r_retain_loop : alk.
  Lemma r_retain St (f : St -> T -> option (bool * St)) st : act (retain C1 E f st) (retain C2 E f st). Proof. unfold retain. al; fin. Qed.
  Lemma r_each_loop St (f : St -> T -> option (T * St)) n : forall i st, act (for_each_loop C1 E f n i st) (for_each_loop C2 E f n i st).
  Proof. induction n as [|n IH]; intros; cbn [for_each_loop]; al; fin. Qed.
  Hint Resolve r_each_loop : alk.
  Lemma r_for_each St (f : St -> T -> option (T * St)) st : act (for_each C1 E f st) (for_each C2 E f st). Proof. unfold for_each. al; fin. Qed.
  Lemma r_known n : forall i sl pan l, act (extend_known C1 E n i sl pan l) (extend_known C2 E n i sl pan l).
  Proof. induction n as [|n IH]; intros i sl pan [|x l]; cbn [extend_known]; al; fin. Qed.
  Lemma r_rest pan l : act (extend_rest C1 E pan l) (extend_rest C2 E pan l).
  Proof. induction l as [|x l IH]; cbn [extend_rest]; al; fin. Qed.
  Hint Resolve r_known r_rest : alk.
  Lemma r_extend it : act (extend C1 E it) (extend C2 E it). Proof. unfold extend. al; fin. Qed.
  Hint Resolve r_extend : alk.
  Lemma r_fill n b : act (fill_blocks C1 n b) (fill_blocks C2 n b).
  Proof. unfold fill_blocks. al; fin. apply a_on. intros. apply a_resize. assumption. Qed.
  Hint Resolve r_fill : alk.
  Lemma r_vec_reserve n : act (on_storage (vec_reserve C1 n)) (on_storage (vec_reserve C2 n)).
  Proof. apply a_on. intros. apply a_reserve. assumption. Qed.
  Hint Resolve r_vec_reserve : alk.
  Lemma r_with_value x n : act (extend_with_value C1 E x n) (extend_with_value C2 E x n).
  Proof. unfold extend_with_value. al; fin. Qed.
  Hint Resolve r_with_value : alk.
  Lemma r_resize n x : act (resize C1 E n x) (resize C2 E n x). Proof. unfold resize. al; fin. Qed.
  Lemma r_build A (m m' : M ev A) (Q : A -> A -> Prop) : acts_alike alike Q m m' -> answers_alike alike (build C1 m) (build C2 m').
  Proof.
    intros H. unfold build. assert (G : alike (ev_new C1) (ev_new C2)) by (split; reflexivity). specialize (H _ _ G).
    destruct (m (ev_new C1)) as [o s], (m' (ev_new C2)) as [o' s']. cbn in H. unfold answers_alike, out_of_memory in *.
    destruct H as [[-> | ->]|[[-> | ->]|[[[-> | ->]|[[-> | ->]|H]] K]]]; auto.
    destruct o, o'; try contradiction; auto.
  Qed.
  Lemma r_collect v w n : alike v w -> forall r, iter_collect C1 E v n r = iter_collect C2 E w n r.
  Proof.
    intros H. induction n as [|n IH]; intros r; cbn [iter_collect]; unfold iter_next; destruct (range_next r) as [o r'];
      (replace (iter_item C1 E v o) with (iter_item C2 E w o); [|alk; reflexivity]); destruct (iter_item C2 E w o) as [[x|]| | |]; try reflexivity. rewrite IH. reflexivity.
  Qed.
  Lemma r_to_vec v w : alike v w -> to_vec C1 E v = to_vec C2 E w.
  Proof. intros H. unfold to_vec. replace (into_iter w) with (into_iter v); [apply r_collect; exact H|alk; reflexivity]. Qed.
  Lemma r_load_eq i v w : alike v w -> load i v = load i w. Proof. intros H. alk. reflexivity. Qed.
  Lemma r_get_u_eq i v w : alike v w -> get_raw_unchecked C1 E i v = get_raw_unchecked C2 E i w. Proof. intros H. alk. reflexivity. Qed.
  Lemma r_any_loop v w n : alike v w -> forall i one high xm, any_loop C1 n i one high xm v = any_loop C2 n i one high xm w.
  Proof.
    intros H. induction n as [|n IH]; intros; cbn [any_loop]; [reflexivity|]. rewrite (r_load_eq i H). destruct (load i w); cbn [obind]; try reflexivity.
    change (haszero C2) with (haszero C1). destruct (haszero _ _ _ _); [reflexivity|apply IH].
  Qed.
  Lemma r_any x v w : alike v w -> any C1 E x v = any C2 E x w.
  Proof.
    intros H. unfold any. replace (is_empty w) with (is_empty v) by (alk; reflexivity). destruct (is_empty v); [reflexivity|].
    replace (len w) with (len v) by (alk; reflexivity). change (block_index C2 E) with (block_index C1 E). destruct (block_index C1 E (len v)) as [lb ls].
    change (one_mask C2 E) with (one_mask C1 E). destruct (one_mask C1 E) as [one| | |]; cbn [obind]; try reflexivity.
    change (shl C2) with (shl C1). destruct (shl C1 one _) as [high| | |]; cbn [obind]; try reflexivity.
    change (x_mask C2 E) with (x_mask C1 E). destruct (x_mask C1 E x) as [xm| | |]; cbn [obind]; try reflexivity.
    rewrite (r_any_loop (N.to_nat lb) H). destruct (any_loop C2 _ _ _ _ _ w) as [b| | |]; cbn [obind]; try reflexivity.
    destruct b; [reflexivity|]. destruct (negb _); [|reflexivity]. rewrite (r_load_eq lb H). reflexivity.
  Qed.
  Lemma r_all_loop v w n : alike v w -> forall i a b, all_loop n i a b v = all_loop n i a b w.
  Proof.
    intros H. induction n as [|n IH]; intros; cbn [all_loop]; [reflexivity|]. rewrite (r_load_eq i H). destruct (load i w); cbn [obind]; try reflexivity.
    destruct (negb _); [reflexivity|apply IH].
  Qed.
  Lemma r_all x v w : alike v w -> all C1 E x v = all C2 E x w.
  Proof.
    intros H. unfold all. replace (is_empty w) with (is_empty v) by (alk; reflexivity). destruct (is_empty v); [reflexivity|].
    replace (len w) with (len v) by (alk; reflexivity). change (block_index C2 E) with (block_index C1 E). destruct (block_index C1 E (len v)) as [lb ls].
    change (shr C2) with (shr C1). change (bones C2) with (bones C1). change (W C2) with (W C1). destruct (shr C1 _ _) as [valid| | |]; cbn [obind]; try reflexivity.
    change (x_mask C2 E) with (x_mask C1 E). destruct (x_mask C1 E x) as [xm| | |]; cbn [obind]; try reflexivity.
    rewrite (r_all_loop (N.to_nat lb) H). destruct (all_loop _ _ _ _ w) as [b| | |]; cbn [obind]; try reflexivity.
    destruct (negb b); [reflexivity|]. destruct (negb _); [|reflexivity]. change (shl C2) with (shl C1). rewrite (r_load_eq lb H). reflexivity.
  Qed.
  Lemma r_eq_loop v w v2 w2 n : alike v w -> alike v2 w2 -> forall i, eq_loop C1 E n i v v2 = eq_loop C2 E n i w w2.
  Proof.
    intros H K. induction n as [|n IH]; intros i; cbn [eq_loop]; [reflexivity|]. rewrite (r_get_u_eq i H), (r_get_u_eq i K).
    destruct (get_raw_unchecked C2 E i w); cbn [obind]; try reflexivity. destruct (get_raw_unchecked C2 E i w2); cbn [obind]; try reflexivity. destruct (a =? a0); [apply IH|reflexivity].
  Qed.
  Lemma r_eqv v w v2 w2 : alike v w -> alike v2 w2 -> eq C1 E v v2 = eq C2 E w w2.
  Proof.
    intros H K. unfold eq. rewrite (r_eq_loop _ H K). replace (len w) with (len v) by (exact (proj2 H)). replace (len w2) with (len v2) by (exact (proj2 K)). reflexivity.
  Qed.
  Lemma r_hash v w : alike v w -> hash C1 E v = hash C2 E w.
  Proof.
    intros H. unfold hash. replace (len w) with (len v) by (alk; reflexivity). generalize (N.to_nat (len v)), 0. intros n.
    induction n as [|n IH]; intros i; cbn [hash_loop]; [reflexivity|]. rewrite (r_get_u_eq i H). destruct (get_raw_unchecked C2 E i w); cbn [obind]; try reflexivity. rewrite IH. reflexivity.
  Qed.
  Lemma r_m_iter v w calls : alike v w -> forall r, m_iter C1 E v r calls = m_iter C2 E w r calls.
  Proof.
    intros H. assert (G : forall o, iter_item C1 E v o = iter_item C2 E w o) by (intros; alk; reflexivity).
    induction calls as [|ca calls IH]; intros r; cbn [m_iter]; [reflexivity|].
    destruct ca; unfold iter_next, iter_next_back, iter_nth;
      try match goal with |- context [range_next r] => destruct (range_next r) | |- context [range_next_back r] => destruct (range_next_back r) | |- context [range_nth ?n r] => destruct (range_nth n r) end;
      rewrite ?G, ?IH; try reflexivity.
  Qed.
  Lemma r_clone v w : alike v w -> answers_alike alike (clone C1 v) (clone C2 w).
  Proof.
    intros H. unfold clone. eapply aa_bind.
    - unfold vec_clone. replace (data (storage w)) with (data (storage v)) by (alk; reflexivity). apply a_extend. reflexivity.
    - intros s s' G. right. right. split; [exact G|]. alk. reflexivity.
  Qed.
  Lemma r_with_cap n : answers_alike alike (with_capacity C1 E n) (with_capacity C2 E n).
  Proof.
    unfold with_capacity. eapply aa_bind.
    - unfold vec_with_capacity. change (blocks_for_elements C2 E n) with (blocks_for_elements C1 E n). apply a_ensure. reflexivity.
    - intros s s' G. right. right. split; [exact G|reflexivity].
  Qed.
  Lemma al_1 (s s' : ev * ev) : alike2 s s' -> alike (fst s) (fst s'). Proof. intros [? ?]. assumption. Qed.
  Lemma al_2 (s s' : ev * ev) : alike2 s s' -> alike (snd s) (snd s'). Proof. intros [? ?]. assumption. Qed.
  Hint Resolve al_1 al_2 : alk.
  Lemma r_append : is_small k1 = is_small k2 -> act2 (append C1 E) (append C2 E).
  Proof.
    intros Hk. unfold append. change (small C1) with (is_small k1). change (small C2) with (is_small k2). rewrite Hk. unfold vec_extend_from.
    eapply at_bind; [apply at_reads; intros s s' H; apply r_len, al_2, H|]. intros n n' <-.
    eapply at_bind; [apply at_reads; intros s s' H; apply r_len, al_1, H|]. intros l l' <-.
    change (EPB C2 E) with (EPB C1 E). destruct (l mod EPB C1 E =? 0).
    - eapply at_bind; [apply at_fst, r_fix|]. intros _ _ _. eapply at_bind; [apply at_snd, r_fix|]. intros _ _ _.
      eapply at_bind; [apply at_reads with (Q := Logic.eq); intros s s' H; right; right; exact (proj1 (al_2 H))|]. intros od od' <-.
      eapply at_bind; [apply at_fst, a_on; intros; apply a_extend; assumption|]. intros _ _ _.
      eapply at_bind; [|intros _ _ _; eapply at_bind].
      + destruct (is_small k2); [apply at_snd, r_clear|]. apply at_snd. intros v w [H1 H2]. right. right. split; [apply aa_refl|]. split; [reflexivity|exact H2].
      + apply at_reads. intros s s' H. replace (num (fst s')) with (num (fst s)) by (exact (proj2 (al_1 H))). apply aa_refl.
      + intros m m' <-. apply at_fst, at_set_len.
    - eapply at_bind; [apply at_fst, r_reserve|]. intros _ _ _. eapply at_bind; [apply at_lift, aa_refl|]. intros m m' <-.
      eapply at_bind; [apply at_fst, at_set_len|]. intros _ _ _.
      eapply at_bind; [|intros _ _ _; apply at_snd, r_clear].
      apply at_for. intros i. eapply at_bind; [apply at_lift, aa_refl|]. intros idx idx' <-.
      eapply at_bind; [apply at_reads; intros s s' H; apply r_get_u, al_2, H|]. intros d d' <-. apply at_fst, r_set_u.
  Qed.
  Lemma r_split_off at_ : acts_alike alike alike (split_off C1 E at_) (split_off C2 E at_).
  Proof.
    intros v w H. revert H. intros H0. unfold split_off. replace (len w) with (len v) by (alk; reflexivity).
    destruct (at_ <=? len v); [|right; right; split; [right; right; reflexivity|exact H0]].
    match goal with |- context [fst (?f v)] => match goal with |- context [fst (?g w)] => assert (H : acts_alike alike alike f g); [|exact (H v w H0)] end end.
    eapply at_bind; [apply at_reads; intros; apply aa_eq; alk; reflexivity|]. intros n n' <-.
    eapply at_bind; [apply at_lift, r_with_cap|]. intros o o' Ho.
    match goal with |- acts_alike _ _ (let '(_, _) := ?f o in _) (let '(_, _) := ?g o' in _) => assert (H : act f g) end.
    { eapply at_bind; [apply at_set_len|]. intros _ _ _. apply at_for. intros i. eapply at_bind; [apply at_lift, aa_refl|]. intros idx idx' <-.
      eapply at_bind; [apply at_lift, r_get_u; exact H0|]. intros d d' <-. apply r_set_u. }
    specialize (H _ _ Ho).
    match goal with |- acts_alike _ _ (let '(_, _) := ?f in _) (let '(_, _) := ?g in _) => destruct f as [a s]; destruct g as [a' s'] end. cbn [fst snd] in H.
    destruct H as [H|[H|[H Hs]]].
    - intros x y Hxy. left. destruct H as [-> | ->]; [left|right]; reflexivity.
    - intros x y Hxy. right. left. destruct H as [-> | ->]; [left|right]; reflexivity.
    - eapply at_bind; [apply at_lift; exact H|]. intros _ _ _. eapply at_bind; [apply at_set_len|]. intros _ _ _. apply at_ret. exact Hs.
  Qed.

  (** programs *)
  Definition pools (p q : list ev) : Prop := Forall2 alike p q.
  Definition step_alike (a b : mout T * list ev) : Prop :=
    memory (fst a) = true \/ memory (fst b) = true \/ (fst a = fst b /\ pools (snd a) (snd b)).
  Lemma pools_nth p q r : pools p q -> match nth_error p r, nth_error q r with Some v, Some w => alike v w | None, None => True | _, _ => False end.
  Proof. intros H. revert r. induction H as [|v w p q Hv H IH]; intros [|r]; cbn; auto. apply IH. Qed.
  Lemma pools_upd p q r v w : pools p q -> alike v w -> pools (upd p r v) (upd q r w).
  Proof. intros H Hv. revert r. induction H as [|v' w' p q Hv' H IH]; intros [|r]; cbn; constructor; auto. apply IH. Qed.
  Lemma of_mem A (k : A -> res T) o : out_of_memory o -> memory (of_outcome k o) = true.
  Proof. intros [-> | ->]; reflexivity. Qed.
  Lemma of_alike A (Q : A -> A -> Prop) (k : A -> res T) o o' : (forall a a', Q a a' -> k a = k a') -> answers_alike Q o o' ->
    memory (of_outcome k o) = true \/ memory (of_outcome k o') = true \/ of_outcome k o = of_outcome k o'.
  Proof.
    intros K [H|[H|H]]; [left; apply of_mem, H|right; left; apply of_mem, H|]. right. right. destruct o, o'; try contradiction; cbn; try reflexivity.
    - rewrite (K _ _ H). reflexivity.
    - subst. reflexivity.
  Qed.
  Lemma s_on_alike A p q r (m m' : M ev A) k : pools p q -> act m m' -> step_alike (m_on p r m k) (m_on q r m' k).
  Proof.
    intros H K. unfold m_on. specialize (pools_nth r H). destruct (nth_error p r) as [v|], (nth_error q r) as [w|]; try contradiction; intros G;
      [|right; right; split; [reflexivity|exact H]].
    specialize (K _ _ G). destruct (m v) as [o v'], (m' w) as [o' w']. cbn [fst snd] in K. destruct K as [K|[K|[K L]]].
    - left. apply of_mem, K.
    - right. left. apply of_mem, K.
    - destruct (of_alike k (fun a a' (e : a = a') => f_equal k e) K) as [X|[X|X]]; [left; exact X|right; left; exact X|]. right. right. split; [exact X|]. apply pools_upd; assumption.
  Qed.
  Lemma s_read_alike A p q r (f f' : ev -> outcome A) k : pools p q -> (forall v w, alike v w -> f v = f' w) -> step_alike (m_read p r f k) (m_read q r f' k).
  Proof.
    intros H K. unfold m_read. specialize (pools_nth r H). destruct (nth_error p r) as [v|], (nth_error q r) as [w|]; try contradiction; intros G;
      right; right; (split; [|exact H]); [|reflexivity]. cbn. rewrite (K _ _ G). reflexivity.
  Qed.
  Lemma s_new_alike p q o o' : pools p q -> answers_alike alike o o' -> step_alike (m_new p o) (m_new q o').
  Proof.
    intros H [[-> | ->]|[[-> | ->]|K]]; try (left; reflexivity); try (right; left; reflexivity).
    destruct o, o'; try contradiction; right; right; (split; [|]); try exact H; try reflexivity.
    - cbn. apply Forall2_app; [exact H|]. constructor; [exact K|constructor].
    - subst. reflexivity.
  Qed.
  Theorem a_step p q o : is_small k1 = is_small k2 \/ no_append o = true -> pools p q -> step_alike (m_step C1 E p o) (m_step C2 E q o).
  Proof.
    intros Hk H. destruct o; cbn [m_step].
    - apply s_new_alike; [exact H|]. right. right. split; reflexivity.
    - apply s_new_alike; [exact H|]. apply r_with_cap.
    - apply s_new_alike; [exact H|]. eapply r_build, r_with_value.
    - apply s_new_alike; [exact H|]. eapply r_build, r_extend.
    - apply s_new_alike; [exact H|]. eapply r_build, r_extend.
    - specialize (pools_nth r H). destruct (nth_error p r) as [v|], (nth_error q r) as [w|]; try contradiction; intros G; [|right; right; split; [reflexivity|exact H]].
      apply s_new_alike; [exact H|]. apply r_clone, G.
    - apply s_on_alike; [exact H|]. apply r_push.
    - apply s_on_alike; [exact H|]. apply r_pop.
    - apply s_on_alike; [exact H|]. apply r_insert.
    - apply s_on_alike; [exact H|]. apply r_remove.
    - apply s_on_alike; [exact H|]. apply r_swap.
    - apply s_on_alike; [exact H|]. apply r_swap_remove.
    - apply s_on_alike; [exact H|]. apply r_truncate.
    - apply s_on_alike; [exact H|]. apply r_clear.
    - apply s_on_alike; [exact H|]. apply r_resize.
    - apply s_read_alike; [exact H|]. intros v w G. alk. reflexivity.
    - apply s_on_alike; [exact H|]. apply r_set.
    - apply s_on_alike; [exact H|]. apply r_reserve.
    - apply s_on_alike; [exact H|]. apply r_shrink.
    - apply s_on_alike; [exact H|]. apply r_extend.
    - destruct Hk as [Hk|Hk]; [|discriminate].
      pose proof (pools_nth r H) as G1. pose proof (pools_nth r2 H) as G2.
      destruct (nth_error p r) as [v|], (nth_error q r) as [w|]; try contradiction; [|right; right; split; [reflexivity|exact H]].
      destruct (nth_error p r2) as [v2|], (nth_error q r2) as [w2|]; try contradiction; [|right; right; split; [reflexivity|exact H]].
      destruct (Nat.eqb r r2); [right; right; split; [reflexivity|exact H]|].
      assert (G : alike2 (v, v2) (w, w2)) by (split; assumption). pose proof (r_append Hk G) as K.
      destruct (append C1 E (v, v2)) as [o s], (append C2 E (w, w2)) as [o' s']. cbn [fst snd] in K. destruct K as [K|[K|[K L]]].
      + left. apply of_mem, K.
      + right. left. apply of_mem, K.
      + destruct (of_alike (fun _ : unit => @RUnit T) (fun a a' (_ : a = a') => Logic.eq_refl) K) as [X|[X|X]]; [left; exact X|right; left; exact X|]. right. right. split; [exact X|].
        cbn [snd]. apply pools_upd; [apply pools_upd; [exact H|apply al_1, L]|apply al_2, L].
    - specialize (pools_nth r H). destruct (nth_error p r) as [v|], (nth_error q r) as [w|]; try contradiction; intros G; [|right; right; split; [reflexivity|exact H]].
      pose proof (r_split_off at_ G) as K. destruct (split_off C1 E at_ v) as [o s], (split_off C2 E at_ w) as [o' s']. cbn [fst snd] in K. unfold step_alike.
      destruct K as [[-> | ->]|[[-> | ->]|[[[-> | ->]|[[-> | ->]|K]] L]]]; auto.
      destruct o, o'; try contradiction; right; right; (split; [|]); try (cbn; subst; reflexivity); cbn [snd].
      + apply Forall2_app; [apply pools_upd; assumption|]. constructor; [exact K|constructor].
      + apply pools_upd; assumption.
      + apply pools_upd; assumption.
    - apply s_on_alike; [exact H|]. apply r_retain.
    - apply s_on_alike; [exact H|]. apply r_for_each.
    - apply s_read_alike; [exact H|]. intros v w G. apply r_any, G.
    - apply s_read_alike; [exact H|]. intros v w G. apply r_all, G.
    - pose proof (pools_nth r H) as G1. pose proof (pools_nth r2 H) as G2.
      destruct (nth_error p r) as [v|], (nth_error q r) as [w|]; try contradiction; [|right; right; split; [reflexivity|exact H]].
      destruct (nth_error p r2) as [v2|], (nth_error q r2) as [w2|]; try contradiction; [|right; right; split; [reflexivity|exact H]].
      rewrite (r_eqv G1 G2). right. right. split; [reflexivity|exact H].
    - apply s_read_alike; [exact H|]. intros v w G. apply r_hash, G.
    - apply s_read_alike; [exact H|]. intros v w G. apply r_to_vec, G.
    - apply s_read_alike; [exact H|]. intros v w G. replace (into_iter w) with (into_iter v) by (alk; reflexivity). apply r_m_iter, G.
    - apply s_read_alike; [exact H|]. intros v w G. alk. reflexivity.
    - apply s_read_alike; [exact H|]. intros v w G. alk. reflexivity.
  Qed.
  Theorem a_run prog : is_small k1 = is_small k2 \/ forallb no_append prog = true -> forall p q, pools p q ->
    existsb memory (fst (m_run C1 E p prog)) = true \/ existsb memory (fst (m_run C2 E q prog)) = true \/
    (fst (m_run C1 E p prog) = fst (m_run C2 E q prog) /\ pools (snd (m_run C1 E p prog)) (snd (m_run C2 E q prog))).
  Proof.
    induction prog as [|o prog IH]; intros Hk p q H; cbn [m_run]; [right; right; split; [reflexivity|exact H]|].
    assert (Hk1 : is_small k1 = is_small k2 \/ no_append o = true) by (destruct Hk as [Hk|Hk]; [left; exact Hk|right; cbn in Hk; apply andb_true_iff in Hk; tauto]).
    assert (Hk2 : is_small k1 = is_small k2 \/ forallb no_append prog = true) by (destruct Hk as [Hk|Hk]; [left; exact Hk|right; cbn in Hk; apply andb_true_iff in Hk; tauto]).
    specialize (IH Hk2). pose proof (a_step o Hk1 H) as G. unfold step_alike in G.
    destruct (m_step C1 E p o) as [a p'], (m_step C2 E q o) as [b q']. cbn [fst snd] in G.
    destruct G as [G|[G|[<- G]]].
    - left. destruct a; try discriminate; destruct (m_run C1 E p' prog); reflexivity.
    - right. left. destruct b; try discriminate; destruct (m_run C2 E q' prog); reflexivity.
    - specialize (IH _ _ G). destruct (m_run C1 E p' prog) as [ra pa], (m_run C2 E q' prog) as [rb pb]. cbn [fst snd] in IH.
      destruct a; cbn [fst snd existsb memory orb]; try (left; reflexivity).
      + destruct IH as [X|[X|[<- X]]]; [left; exact X|right; left; exact X|right; right; split; [reflexivity|exact X]].
      + right. right. split; [reflexivity|exact G].
  Qed.
End A.
