(** AllocatorUser.v -- proofs for PropAllocator.v: user code with state (User.v). *)
From Verif Require Export AllocatorFacts User.
Open Scope N_scope.
Set Implicit Arguments.

Lemma atu_self U A (m m' : M ev A) (Q : A -> A -> Prop) : acts_alike alike Q m m' -> acts_alike (alike_user (U := U)) Q (on_fst m) (on_fst m').
Proof.
  intros H s s' [H1 H2]. specialize (H _ _ H1). unfold on_fst. destruct (m (fst s)), (m' (fst s')). cbn in *. destruct H as [H|[H|[H Ht]]]; auto.
  right. right. split; [exact H|split; assumption].
Qed.
Lemma atu_user U A (m : M U A) : acts_alike (alike_user (U := U)) Logic.eq (on_snd m) (on_snd m).
Proof.
  intros s s' [H1 H2]. unfold on_snd. rewrite <- H2. destruct (m (snd s)) as [o u]. cbn. right. right. split; [apply aa_refl|split; [exact H1|reflexivity]].
Qed.
Lemma atu_reads U A (Q : A -> A -> Prop) (f f' : ev -> outcome A) : (forall v w, alike v w -> answers_alike Q (f v) (f' w)) ->
  acts_alike (alike_user (U := U)) Q (self_get f) (self_get f').
Proof. intros H s s' [H1 H2]. right. right. split; [exact (H _ _ H1)|split; assumption]. Qed.
Ltac alu := unfold self, user;
  repeat first
    [ progress intros
    | progress subst
    | solve [eauto 3 with alk]
    | apply aa_refl
    | apply atu_user
    | eapply at_bind | apply atu_reads | eapply atu_self | apply at_lift
    | match goal with
      | |- answers_alike _ (if ?b then _ else _) (if ?b' then _ else _) => change b' with b; destruct b
      | |- acts_alike _ _ (if ?b then _ else _) (if ?b' then _ else _) => change b' with b; destruct b
      | |- acts_alike _ _ (match ?o with Some _ => _ | None => _ end) _ => destruct o
      end
    | (apply at_ret; reflexivity)
    | progress al
    | solve [apply aa_eq; alk; reflexivity] ].
#[local] Hint Resolve r_get_u r_get_raw r_get r_load r_load_u r_len r_num r_unwrap r_store r_store_u r_set_u r_set_raw r_set r_reserve r_fix r_truncate
  r_clear r_swap r_grow r_push r_pop r_insert_slow r_insert_blocks r_remove_slow r_remove_blocks r_fill r_vec_reserve : alk.

Section A.
  Context {U T : Type} (c : cfg) (X : usercode U T) (k1 k2 : container).
  Local Notation C1 := (over k1 c).
  Local Notation C2 := (over k2 c).
  Local Notation actu := (acts_alike (alike_user (U := U)) Logic.eq).
  Lemma au_get i : actu (w_get C1 X i) (w_get C2 X i). Proof. unfold w_get. alu. Qed.
  Hint Resolve au_get : alk.
  Lemma au_elem i : actu (w_elem C1 X i) (w_elem C2 X i). Proof. unfold w_elem. alu. Qed.
  Hint Resolve au_elem : alk.
  Lemma au_set i x : actu (w_set C1 X i x) (w_set C2 X i x). Proof. unfold w_set. alu. Qed.
  Hint Resolve au_set : alk.
  Lemma au_push x : actu (w_push C1 X x) (w_push C2 X x). Proof. unfold w_push. alu. Qed.
  Hint Resolve au_push : alk.
  Lemma au_pop : actu (w_pop C1 X) (w_pop C2 X).
  Proof.
    unfold w_pop. apply (@at_if _ _ (alike_user (U := U)) Logic.eq (fun s => is_empty (fst s)) (fun s => is_empty (fst s)) (fun x => (Ret None, x)) (fun x => (Ret None, x)));
      [intros s s' [H _]; unfold is_empty, len; rewrite (proj2 H); reflexivity|apply at_fun; auto|]. alu.
  Qed.
  Hint Resolve au_pop : alk.
  Lemma au_swap_remove i : actu (w_swap_remove C1 X i) (w_swap_remove C2 X i). Proof. unfold w_swap_remove. alu. Qed.
  Lemma au_insert i x : actu (w_insert C1 X i x) (w_insert C2 X i x). Proof. unfold w_insert, block_index. cbn [fst snd]. alu. Qed.
  Lemma au_remove i : actu (w_remove C1 X i) (w_remove C2 X i). Proof. unfold w_remove, block_index. cbn [fst snd]. alu. Qed.
  Lemma au_retain_loop f n : forall i j, actu (w_retain_loop C1 X f n i j) (w_retain_loop C2 X f n i j).
  Proof. induction n as [|n IH]; intros; cbn [w_retain_loop]; alu. Qed.
  Hint Resolve au_retain_loop : alk.
  Lemma au_retain f : actu (w_retain C1 X f) (w_retain C2 X f). Proof. unfold w_retain. alu. Qed.
  Lemma au_each_loop f n : forall i, actu (w_for_each_loop C1 X f n i) (w_for_each_loop C2 X f n i).
  Proof. induction n as [|n IH]; intros; cbn [w_for_each_loop]; alu. Qed.
  Hint Resolve au_each_loop : alk.
  Lemma au_for_each f : actu (w_for_each C1 X f) (w_for_each C2 X f). Proof. unfold w_for_each. alu. Qed.
  Section Ext.
    Context {I : Type} (next : I -> M U (option T * I)).
    Lemma au_known n : forall i l it, actu (w_known C1 X next n i l it) (w_known C2 X next n i l it).
    Proof. induction n as [|n IH]; intros; cbn [w_known]; alu. Qed.
    Lemma au_rest n : forall it, actu (w_rest C1 X next n it) (w_rest C2 X next n it).
    Proof. induction n as [|n IH]; intros; cbn [w_rest]; alu. Qed.
    Hint Resolve au_known au_rest : alk.
    Lemma au_extend n h it : actu (w_extend C1 X next n h it) (w_extend C2 X next n h it). Proof. unfold w_extend. alu. Qed.
  End Ext.
  Hint Resolve au_extend : alk.
  Lemma au_repeat x n : actu (w_repeat C1 X x n) (w_repeat C2 X x n). Proof. unfold w_repeat. alu. Qed.
  Hint Resolve au_repeat : alk.
  Lemma au_with_value x n : actu (w_extend_with_value C1 X x n) (w_extend_with_value C2 X x n).
  Proof. unfold w_extend_with_value. alu. Qed.
  Hint Resolve au_with_value : alk.
  Lemma au_resize n x : actu (w_resize C1 X n x) (w_resize C2 X n x). Proof. unfold w_resize. alu. Qed.
  Lemma au_any x : actu (w_any C1 X x) (w_any C2 X x).
  Proof.
    intros s s' [H Hu]. unfold w_any. replace (is_empty (fst s')) with (is_empty (fst s)) by (unfold is_empty, len; rewrite (proj2 H); reflexivity).
    destruct (is_empty (fst s)); [right; right; split; [apply aa_refl|split; assumption]|].
    replace (len (fst s')) with (len (fst s)) by (exact (proj2 H)). unfold block_index.
    match goal with |- context [fst (?f s)] => match goal with |- context [fst (?g s')] => assert (K : actu f g); [|exact (K s s' (conj H Hu))] end end.
    eapply at_bind; [apply at_lift, aa_refl|]. intros one one' <-. eapply at_bind; [apply at_lift, aa_refl|]. intros high high' <-.
    eapply at_bind; [apply atu_user|]. intros d d' <-. apply at_lift.
    eapply aa_bind; [apply aa_refl|]. intros xm xm' <-. rewrite (r_any_loop c k1 k2 _ H). eapply aa_bind; [apply aa_refl|]. intros b b' <-. destruct b; [apply aa_refl|].
    match goal with |- answers_alike _ (if ?b then _ else _) (if ?b' then _ else _) => change b' with b; destruct b end; [|apply aa_refl].
    eapply aa_bind; [apply aa_refl|]. intros m m' <-. rewrite (r_load_eq _ H). apply aa_refl.
  Qed.
  Lemma au_all x : actu (w_all C1 X x) (w_all C2 X x).
  Proof.
    intros s s' [H Hu]. unfold w_all. replace (is_empty (fst s')) with (is_empty (fst s)) by (unfold is_empty, len; rewrite (proj2 H); reflexivity).
    destruct (is_empty (fst s)); [right; right; split; [apply aa_refl|split; assumption]|].
    replace (len (fst s')) with (len (fst s)) by (exact (proj2 H)). unfold block_index.
    match goal with |- context [fst (?f s)] => match goal with |- context [fst (?g s')] => assert (K : actu f g); [|exact (K s s' (conj H Hu))] end end.
    eapply at_bind; [apply at_lift, aa_refl|]. intros va va' <-. eapply at_bind; [apply at_lift, aa_refl|]. intros one one' <-.
    eapply at_bind; [apply atu_user|]. intros d d' <-. apply at_lift.
    eapply aa_bind; [apply aa_refl|]. intros xm xm' <-. rewrite (r_all_loop _ H). eapply aa_bind; [apply aa_refl|]. intros b b' <-. destruct (negb b); [apply aa_refl|].
    match goal with |- answers_alike _ (if ?b then _ else _) (if ?b' then _ else _) => change b' with b; destruct b end; [|apply aa_refl].
    eapply aa_bind; [apply aa_refl|]. intros m m' <-. rewrite (r_load_eq _ H). apply aa_refl.
  Qed.
  Lemma au_visit f n : forall i, actu (w_visit C1 X f n i) (w_visit C2 X f n i).
  Proof. induction n as [|n IH]; intros; cbn [w_visit]; alu. Qed.
  Hint Resolve au_visit : alk.
  Lemma au_each f : actu (w_each C1 X f) (w_each C2 X f). Proof. unfold w_each. alu. Qed.
  Lemma au_item o : actu (w_item C1 X o) (w_item C2 X o). Proof. unfold w_item. alu. Qed.
  Hint Resolve au_item : alk.
  Lemma au_iter calls : forall r, actu (w_iter C1 X r calls) (w_iter C2 X r calls).
  Proof.
    induction calls as [|ca calls IH]; intros r; cbn [w_iter]; [apply at_ret; reflexivity|].
    destruct ca; try match goal with |- context [range_next r] => destruct (range_next r) | |- context [range_next_back r] => destruct (range_next_back r) | |- context [range_nth ?n r] => destruct (range_nth n r) end; alu.
  Qed.
  Lemma au_hash_loop h n : forall i, actu (w_hash_loop C1 X h n i) (w_hash_loop C2 X h n i).
  Proof. induction n as [|n IH]; intros; cbn [w_hash_loop]; alu. Qed.
  Hint Resolve au_hash_loop : alk.
  Lemma au_hash h : actu (w_hash C1 X h) (w_hash C2 X h). Proof. unfold w_hash. alu. Qed.
  Lemma au_build A (m m' : M (ev * U) A) (Q : A -> A -> Prop) : acts_alike (alike_user (U := U)) Q m m' -> acts_alike Logic.eq alike (w_build C1 m) (w_build C2 m').
  Proof.
    intros H u u' <-. unfold w_build. assert (G : alike_user (ev_new C1, u) (ev_new C2, u)) by (split; [split|]; reflexivity). specialize (H _ _ G).
    destruct (m (ev_new C1, u)) as [o s], (m' (ev_new C2, u)) as [o' s']. cbn [fst snd] in H. unfold answers_alike, out_of_memory in *.
    destruct H as [[-> | ->]|[[-> | ->]|[[[-> | ->]|[[-> | ->]|H]] [Ka Ku]]]]; cbn; auto.
    destruct o, o'; try contradiction; cbn; auto 7.
  Qed.
  Definition wsame (a b : mout T * (list ev * U)) : Prop :=
    memory (fst a) = true \/ memory (fst b) = true \/ (fst a = fst b /\ pools (fst (snd a)) (fst (snd b)) /\ snd (snd a) = snd (snd b)).
  Lemma au_on A p q u r (m m' : M (ev * U) A) k : pools p q -> actu m m' -> wsame (w_on p u r m k) (w_on q u r m' k).
  Proof.
    intros H K. unfold w_on, wsame. specialize (pools_nth r H). destruct (nth_error p r) as [v|], (nth_error q r) as [w|]; try contradiction; intros G;
      [|right; right; repeat split; exact H].
    specialize (K (v, u) (w, u) (conj G Logic.eq_refl)). destruct (m (v, u)) as [o v'], (m' (w, u)) as [o' w']. cbn [fst snd] in *. destruct K as [K|[K|[K [L Lu]]]].
    - left. apply of_mem, K.
    - right. left. apply of_mem, K.
    - destruct (of_alike k (fun a a' (e : a = a') => f_equal k e) K) as [Y|[Y|Y]]; [left; exact Y|right; left; exact Y|]. right. right. split; [exact Y|]. split; [apply pools_upd; assumption|exact Lu].
  Qed.
  Lemma au_new p q u (m m' : M U ev) : pools p q -> acts_alike Logic.eq alike m m' -> wsame (w_new (T := T) p u m) (w_new q u m').
  Proof.
    intros H K. unfold w_new, wsame. specialize (K u u Logic.eq_refl). destruct (m u) as [o s], (m' u) as [o' s']. cbn [fst snd] in K.
    destruct K as [[-> | ->]|[[-> | ->]|[[[-> | ->]|[[-> | ->]|K]] <-]]]; try (left; reflexivity); try (right; left; reflexivity).
    destruct o, o'; try contradiction; right; right; cbn; (split; [|split]); try exact H; try reflexivity.
    - apply Forall2_app; [exact H|]. constructor; [exact K|constructor].
    - subst. reflexivity.
  Qed.
  Theorem au_step p q u o : is_small k1 = is_small k2 \/ w_no_append o = true -> pools p q -> wsame (w_step C1 X (p, u) o) (w_step C2 X (q, u) o).
  Proof.
    intros Hk H. destruct o; cbn [w_step].
    - destruct (silent o); [|right; right; repeat split; exact H]. pose proof (@a_step T c (shape X) k1 k2 p q o Hk H) as G. unfold step_alike in G.
      destruct (m_step C1 (shape X) p o) as [a p'], (m_step C2 (shape X) q o) as [b q']. unfold wsame. cbn [fst snd] in *. tauto.
    - apply au_on; [exact H|]. apply au_push.
    - apply au_on; [exact H|]. apply au_pop.
    - apply au_on; [exact H|]. apply au_insert.
    - apply au_on; [exact H|]. apply au_remove.
    - apply au_on; [exact H|]. apply au_swap_remove.
    - apply au_on; [exact H|]. apply au_resize.
    - apply au_on; [exact H|]. apply au_get.
    - apply au_on; [exact H|]. apply au_set.
    - apply au_on; [exact H|]. apply au_extend.
    - apply au_on; [exact H|]. apply au_retain.
    - apply au_on; [exact H|]. apply au_for_each.
    - apply au_on; [exact H|]. apply au_any.
    - apply au_on; [exact H|]. apply au_all.
    - apply au_on; [exact H|]. apply au_each.
    - apply au_on; [exact H|]. intros s s' G. replace (into_iter (fst s')) with (into_iter (fst s)) by (unfold into_iter, len; rewrite (proj2 (proj1 G)); reflexivity). apply au_iter, G.
    - apply au_on; [exact H|]. apply au_hash.
    - apply au_new; [exact H|]. eapply au_build, au_with_value.
    - apply au_new; [exact H|]. eapply au_build, au_extend.
    - apply au_new; [exact H|]. eapply au_build, au_extend.
    - apply au_new; [exact H|]. eapply au_build, au_extend.
  Qed.
End A.
