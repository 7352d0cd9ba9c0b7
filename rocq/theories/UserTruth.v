(** UserTruth.v -- user code that tells the truth but may panic: what each call returns, and what a panic leaves. *)
From Verif Require Export UserSame.
From Coq Require Import ZifyBool ZifyNat ZifyN.
Open Scope N_scope.
Set Implicit Arguments.
Unset Strict Implicit.
Set Default Proof Using "Type*".

Definition bare {T} (E : enumlike T) : enumlike T := {| nv := nv E; to_d := fun _ => 0; from_d := fun _ => None |}.

Section Follows.
  Context {U T : Type} {c : cfg} {E : enumlike T} {X : usercode U T}.
  Local Notation MW := (M (ev * U)).
  Hypothesis Ht : truthful E X.
  Hypothesis Hsane : sane_user X.
  Lemma shp : shape X = bare E.
  Proof. unfold shape, bare. rewrite (proj1 Ht). reflexivity. Qed.
  Lemma t_to x : sane (u_to X x). Proof. apply Hsane. Qed.
  Lemma t_from d : sane (u_from X d). Proof. apply Hsane. Qed.
  Lemma t_clone x : sane (u_clone X x). Proof. apply Hsane. Qed.

  Lemma fo_mono A (r : outcome A * (ev * U)) r0 (F G : panic -> ev -> Prop) : follows r r0 F -> (forall k v, F k v -> G k v) -> follows r r0 G.
  Proof. unfold follows. destruct r as [[a|k| |] s]; auto. intros [H|H] K; auto. Qed.
  Lemma fo_bind A B (m : MW A) (f : A -> MW B) (m0 : M ev A) (f0 : A -> M ev B) s F : follows (m s) (m0 (fst s)) F ->
    (forall a s', m0 (fst s) = (Ret a, fst s') -> follows (f a s') (f0 a (fst s')) F) -> follows (bind m f s) (bind m0 f0 (fst s)) F.
  Proof.
    intros H H1. unfold bind at 1. unfold follows in H. destruct (m s) as [[a|k| |] s'].
    - specialize (H1 a s' H). unfold bind. rewrite H. exact H1.
    - destruct H as [H|H]; [left|right; exact H]. unfold bind. rewrite H. reflexivity.
    - exact Logic.I.
    - unfold bind. cbn. destruct (m0 (fst s)) as [o v']. cbn in H. subst o. reflexivity.
  Qed.
  Lemma fo_fst A (m : M ev A) (s : ev * U) F : follows (on_fst m s) (m (fst s)) F.
  Proof. unfold on_fst. destruct (m (fst s)) as [[a|k| |] v']; cbn; auto. Qed.
  Lemma fo_eq A (r : outcome A * (ev * U)) r0 r1 F : follows r r0 F -> r0 = r1 -> follows r r1 F.
  Proof. intros H <-. exact H. Qed.
  Lemma fo_reads A (g : ev -> outcome A) (s : ev * U) F : follows (self_get g s) (reads g (fst s)) F.
  Proof. unfold self_get, reads. destruct (g (fst s)) as [a|k| |]; cbn; auto. Qed.
  Lemma fo_lift A (o : outcome A) (s : ev * U) F : follows (lift o s) (lift o (fst s)) F.
  Proof. destruct o; cbn; auto. Qed.
  Lemma fo_ret A (a : A) (s : ev * U) F : follows (ret a s) (ret a (fst s)) F.
  Proof. reflexivity. Qed.

  (** user code runs: the vector is not touched *)
  Definition stays (v : ev) (k : panic) (v' : ev) : Prop := v' = v /\ users X k.
  Lemma fo_to x s : follows (user (u_to X x) s) (ret (to_d E x) (fst s)) (stays (fst s)).
  Proof.
    destruct s as [v u]. unfold user, on_snd. cbn [fst snd]. destruct (u_to X x u) as [[d|k| |] u'] eqn:Hu; cbn; auto.
    - destruct Ht as [_ [H _]]. rewrite (H _ _ _ _ Hu). reflexivity.
    - right. split; [reflexivity|]. left. exists x, u. rewrite Hu. reflexivity.
    - exfalso. apply (t_to (x := x) (u := u)). rewrite Hu. reflexivity.
  Qed.
  (** from_discr may panic where E has no value, and also where it has one *)
  Lemma fo_from d s : follows (user (u_from X d) s) (lift (from_discr E d) (fst s)) (stays (fst s)).
  Proof.
    destruct s as [v u]. unfold user, on_snd. cbn [fst snd]. destruct (u_from X d u) as [[x|k| |] u'] eqn:Hu; cbn; auto.
    - destruct Ht as [_ [_ [H _]]]. unfold from_discr. rewrite (H _ _ _ _ Hu). reflexivity.
    - right. split; [reflexivity|]. right. left. exists d, u. rewrite Hu. reflexivity.
    - exfalso. apply (t_from (d := d) (u := u)). rewrite Hu. reflexivity.
  Qed.
  Lemma fo_other A (m : M U A) (s : ev * U) a : sane m -> (forall u b u', m u = (Ret b, u') -> b = a) ->
    follows (user m s) (ret a (fst s)) (fun k v' => v' = fst s).
  Proof.
    intros Hm Ha. destruct s as [v u]. unfold user, on_snd. cbn [fst snd]. destruct (m u) as [[x|k| |] u'] eqn:Hu; cbn; auto.
    - rewrite (Ha _ _ _ Hu). reflexivity.
    - exfalso. apply (Hm u). rewrite Hu. reflexivity.
  Qed.

  Lemma fo_get i s : follows (w_get c X i s) (reads (get c E i) (fst s)) (stays (fst s)).
  Proof.
    apply (fo_eq (r0 := bind (reads (get_raw c E i)) (fun r => match r with None => ret None | Some d => x <- lift (from_discr E d) ;; ret (Some x) end) (fst s))).
    - unfold w_get. apply fo_bind; [rewrite shp; apply fo_reads|]. intros [d|] s' H; [|reflexivity]. unfold reads in H. injection H as _ H. rewrite H.
      apply fo_bind; [apply fo_from|]. intros x s2 _. reflexivity.
    - unfold bind, reads, get. destruct (get_raw c E i (fst s)) as [[d|]|k| |]; try reflexivity. cbn. unfold lift. destruct (from_discr E d); reflexivity.
  Qed.
  Local Notation elem i := (fun v => obind (get c E i v) (fun r => unwrap r)).
  Lemma fo_elem i s : follows (w_elem c X i s) (reads (elem i) (fst s)) (stays (fst s)).
  Proof.
    apply (fo_eq (r0 := bind (reads (get c E i)) (fun r => lift (unwrap r)) (fst s))).
    - unfold w_elem. apply fo_bind; [apply fo_get|]. intros r s' H. apply fo_lift.
    - unfold bind, reads. destruct (get c E i (fst s)); reflexivity.
  Qed.
  Lemma fo_set i x s : follows (w_set c X i x s) (EnumVec.set c E i x (fst s)) (stays (fst s)).
  Proof.
    apply (fo_eq (r0 := bind (ret (to_d E x)) (set_raw c E i) (fst s))); [|reflexivity].
    unfold w_set. rewrite shp. apply fo_bind; [apply fo_to|]. intros d s' _. exact (fo_fst _ _ _).
  Qed.
  Lemma fo_push x s : follows (w_push c X x s) (push c E x (fst s)) (fun k v' => users X k /\
    exists v1, grow_if_needed c E (fst s) = (Ret tt, v1) /\ num v1 + 1 <= usize_max c /\ v' = mkEv (storage v1) (num v1 + 1)).
  Proof.
    unfold w_push, push. rewrite shp. apply fo_bind; [exact (fo_fst _ _ _)|]. intros [] s1 H1.
    apply fo_bind; [apply fo_reads|]. intros idx s2 H2. unfold reads in H2. injection H2 as <- H2. rewrite H2 in *.
    apply fo_bind; [apply fo_lift|]. intros n1 s3 H3. unfold lift in H3.
    destruct (N.leb_spec (num (fst s2) + 1) (usize_max c)) as [Hle|]; [|discriminate]. injection H3 as <- H3.
    apply fo_bind; [exact (fo_fst _ _ _)|]. intros [] s4 H4. unfold set_len in H4. injection H4 as H4.
    eapply fo_mono; [apply fo_set|]. intros k v' [-> Hk]. split; [exact Hk|]. exists (fst s2). split; [exact H1|]. split; [exact Hle|]. rewrite <- H4, <- H3. reflexivity.
  Qed.
  Lemma fo_pop s : follows (w_pop c X s) (pop c E (fst s)) (stays (fst s)).
  Proof.
    unfold w_pop, pop. destruct (is_empty (fst s)); [reflexivity|].
    apply (fo_eq (r0 := bind (reads (fun v => usub c (num v) 1)) (fun i => x <- reads (elem i) ;;
      n1 <- reads (fun v => usub c (num v) 1) ;; set_len n1 ;;; ret (Some x)) (fst s))); [|reflexivity].
    apply fo_bind; [apply fo_reads|]. intros i s1 H1. unfold reads in H1. injection H1 as _ H1. rewrite H1.
    apply fo_bind; [apply fo_elem|]. intros x s2 _. apply fo_bind; [apply fo_reads|]. intros n1 s3 _.
    apply fo_bind; [exact (fo_fst _ _ _)|]. intros [] s4 _. reflexivity.
  Qed.
  Lemma fo_swap_remove i s : follows (w_swap_remove c X i s) (swap_remove c E i (fst s))
    (fun k v' => users X k /\ exists last, usub c (len (fst s)) 1 = Ret last /\ swap c E i last (fst s) = (Ret tt, v')).
  Proof.
    unfold w_swap_remove, swap_remove. rewrite shp. apply fo_bind; [apply fo_reads|]. intros last s1 H1. unfold reads in H1. injection H1 as H0 H1. rewrite H1 in *.
    apply fo_bind; [exact (fo_fst _ _ _)|]. intros [] s2 H2. apply fo_bind.
    - eapply fo_mono; [apply fo_pop|]. intros k v' [-> Hk]. split; [exact Hk|]. exists last. auto.
    - intros r s3 _. apply fo_lift.
  Qed.
  Lemma fo_insert i x s : follows (w_insert c X i x s) (EnumVec.insert c E i x (fst s)) (fun k v' => users X k /\
    ((exists v1, grow_if_needed c E (fst s) = (Ret tt, v1) /\ num v1 + 1 <= usize_max c /\ v' = mkEv (storage v1) (num v1 + 1)) \/
     push c E x (fst s) = (Ret tt, v'))).
  Proof.
    unfold w_insert, EnumVec.insert. rewrite shp. apply fo_bind.
    - eapply fo_mono; [apply fo_push|]. intros k v' [H1 H2]. auto.
    - intros [] s1 H1. cbv zeta.
      match goal with |- follows (bind _ (fun prev => self (@?g prev)) _) ?r _ => apply (fo_eq (r0 := bind (ret (to_d E x)) g (fst s1))); [|reflexivity] end.
      apply fo_bind.
      + eapply fo_mono; [apply fo_to|]. intros k v' [-> Hk]. split; [exact Hk|]. right. exact H1.
      + intros d s2 _. exact (fo_fst _ _ _).
  Qed.
  Lemma fo_remove i s : follows (w_remove c X i s) (remove c E i (fst s)) (stays (fst s)).
  Proof.
    unfold w_remove, remove. rewrite shp. apply fo_bind; [apply fo_elem|]. intros x s1 _.
    match goal with |- follows (bind (self ?m) _ _) _ _ => apply (fo_eq (r0 := bind m (fun _ => ret x) (fst s1))) end.
    - apply fo_bind; [exact (fo_fst _ _ _)|]. intros [] s2 _. reflexivity.
    - repeat (rewrite bind_assoc; apply bind_ext; intros ? ?). reflexivity.
  Qed.
  Lemma fo_any x s : follows (w_any c X x s) (reads (any c E x) (fst s)) (stays (fst s)).
  Proof.
    unfold w_any, any. rewrite shp. unfold reads at 1. destruct (is_empty (fst s)); [reflexivity|].
    change (block_index c (bare E)) with (block_index c E). destruct (block_index c E (len (fst s))) as [lb le].
    match goal with |- follows (bind (lift ?a) (fun one => bind (lift (@?b one)) (fun high => bind (user _) (fun d => lift (@?g one high d)))) _) _ _ =>
      apply (fo_eq (r0 := bind (lift a) (fun one => bind (lift (b one)) (fun high => bind (ret (to_d E x)) (fun d => lift (g one high d)))) (fst s))) end.
    - apply fo_bind; [apply fo_lift|]. intros one s1 H1. apply fo_bind; [apply fo_lift|]. intros high s2 H2.
      assert (Hs : fst s2 = fst s).
      { unfold lift in H1, H2. injection H1 as _ H1. injection H2 as _ H2. congruence. }
      apply fo_bind; [rewrite <- Hs; apply fo_to|]. intros d s3 _. apply fo_lift.
    - unfold x_mask. change (one_mask c (bare E)) with (one_mask c E). change (BITS (bare E)) with (BITS E). unfold bind, lift, ret.
      destruct (one_mask c E) as [one|k| |]; try reflexivity. cbn [obind]. destruct (shl c one (BITS E - 1)) as [high|k| |]; reflexivity.
  Qed.
  Lemma fo_all x s : follows (w_all c X x s) (reads (all c E x) (fst s)) (stays (fst s)).
  Proof.
    unfold w_all, all. rewrite shp. unfold reads at 1. destruct (is_empty (fst s)); [reflexivity|].
    change (block_index c (bare E)) with (block_index c E). destruct (block_index c E (len (fst s))) as [lb le].
    match goal with |- follows (bind (lift ?a) (fun one => bind (lift (@?b one)) (fun high => bind (user _) (fun d => lift (@?g one high d)))) _) _ _ =>
      apply (fo_eq (r0 := bind (lift a) (fun one => bind (lift (b one)) (fun high => bind (ret (to_d E x)) (fun d => lift (g one high d)))) (fst s))) end.
    - apply fo_bind; [apply fo_lift|]. intros one s1 H1. apply fo_bind; [apply fo_lift|]. intros high s2 H2.
      assert (Hs : fst s2 = fst s).
      { unfold lift in H1, H2. injection H1 as _ H1. injection H2 as _ H2. congruence. }
      apply fo_bind; [rewrite <- Hs; apply fo_to|]. intros d s3 _. apply fo_lift.
    - unfold x_mask. change (one_mask c (bare E)) with (one_mask c E). change (BITS (bare E)) with (BITS E). unfold bind, lift, ret.
      destruct (shr c (bones c) (W c mod BITS E)) as [va|k| |]; try reflexivity. cbn [obind]. destruct (one_mask c E) as [one|k| |]; reflexivity.
  Qed.
  (** a loop over the items with a body that may panic *)
  Lemma fo_visit f n : (forall x, sane (f x)) -> forall i s,
    follows (w_visit c X f n i s) (iter_collect c E (fst s) n (mkRange i (i + N.of_nat n)), fst s) (fun k v' => v' = fst s).
  Proof.
    intros Hf. induction n as [|n IH]; intros i s.
    - cbn [w_visit iter_collect]. unfold iter_next, range_next. cbn [r_start r_end]. replace (i <? i + N.of_nat 0) with false by lia. reflexivity.
    - cbn [w_visit]. apply (fo_eq (r0 := bind (reads (elem i)) (fun x => bind (ret tt) (fun _ =>
        bind (fun v => (iter_collect c E v n (mkRange (i + 1) (i + 1 + N.of_nat n)), v)) (fun l => ret (x :: l)))) (fst s))).
      + apply fo_bind; [eapply fo_mono; [apply fo_elem|intros k v' [-> _]; reflexivity]|]. intros x s1 H1. unfold reads in H1. injection H1 as _ H1. rewrite H1.
        apply fo_bind; [apply fo_other; [apply Hf|intros u [] u' _; reflexivity]|]. intros [] s2 H2. unfold ret in H2. injection H2 as H2. rewrite H2.
        apply fo_bind; [apply IH|]. intros l s3 _. reflexivity.
      + cbn [iter_collect]. unfold iter_next, range_next. cbn [r_start r_end]. replace (i <? i + N.of_nat (S n)) with true by lia.
        unfold bind, reads, iter_item, ret. replace (i + 1 + N.of_nat n) with (i + N.of_nat (S n)) by lia.
        destruct (get c E i (fst s)) as [[x|]|k| |]; try reflexivity. cbn [obind unwrap].
        destruct (iter_collect c E (fst s) n _); reflexivity.
  Qed.
  Lemma fo_each f s : (forall x, sane (f x)) -> follows (w_each c X f s) (reads (to_vec c E) (fst s)) (fun k v' => v' = fst s).
  Proof.
    intros Hf. unfold w_each, self_get, bind, reads at 1. pose proof (fo_visit (N.to_nat (len (fst s))) Hf 0 s) as G.
    unfold reads, to_vec, into_iter, iter_size_hint. cbn [r_start r_end]. rewrite N2Nat.id, N.sub_0_r in *. exact G.
  Qed.
  Lemma fo_item o s : follows (w_item c X o s) (iter_item c E (fst s) o, fst s) (stays (fst s)).
  Proof.
    destruct o as [i|]; [|reflexivity]. cbn [w_item].
    apply (fo_eq (r0 := bind (reads (elem i)) (fun x => ret (Some x)) (fst s))).
    - apply fo_bind; [apply fo_elem|]. intros x s1 _. reflexivity.
    - unfold bind, reads, iter_item, ret. destruct (get c E i (fst s)) as [[x|]|k| |]; reflexivity.
  Qed.
  Lemma fo_iter calls : forall r s, follows (w_iter c X r calls s) (m_iter c E (fst s) r calls, fst s) (stays (fst s)).
  Proof.
    induction calls as [|ca calls IH]; intros r s; cbn [w_iter]; [reflexivity|].
    assert (G : forall (m : M (ev * U) (ires T)) (o : outcome (ires T)) r', follows (m s) (o, fst s) (stays (fst s)) ->
      follows ((x <- m ;; l <- w_iter c X r' calls ;; ret (x :: l)) s)
        (obind o (fun x => obind (m_iter c E (fst s) r' calls) (fun l => Ret (x :: l))), fst s) (stays (fst s))).
    { intros m o r' Hm. apply (fo_eq (r0 := bind (lift o) (fun x => bind (fun v => (m_iter c E v r' calls, v)) (fun l => ret (x :: l))) (fst s))).
      - apply fo_bind; [exact Hm|]. intros x s1 H1. unfold lift in H1. injection H1 as _ H1. rewrite H1.
        apply fo_bind; [apply IH|]. intros l s2 _. reflexivity.
      - unfold bind, lift, ret. destruct o as [x|k| |]; try reflexivity. cbn [obind]. destruct (m_iter c E (fst s) r' calls); reflexivity. }
    assert (Gi : forall o, follows ((x <- w_item c X o ;; ret (JItem x)) s) (obind (iter_item c E (fst s) o) (fun x => Ret (JItem x)), fst s) (stays (fst s))).
    { intros o. apply (fo_eq (r0 := bind (fun v => (iter_item c E v o, v)) (fun x => ret (JItem x)) (fst s))).
      - apply fo_bind; [apply fo_item|]. intros x s1 _. reflexivity.
      - unfold bind, ret. destruct (iter_item c E (fst s) o); reflexivity. }
    cbn [m_iter]. unfold iter_next, iter_next_back, iter_nth.
    destruct ca as [| |n| |].
    - destruct (range_next r) as [o r']. exact (G _ _ _ (Gi o)).
    - destruct (range_next_back r) as [o r']. exact (G _ _ _ (Gi o)).
    - destruct (range_nth n r) as [o r']. exact (G _ _ _ (Gi o)).
    - exact (G (ret (JNum _)) (Ret (JNum _)) _ eq_refl).
    - exact (G (ret (JNum _)) (Ret (JNum _)) _ eq_refl).
  Qed.
End Follows.
