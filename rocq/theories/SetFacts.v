(** SetFacts.v -- facts about EnumSet. *)
From Verif Require Export EnumSet BitFacts.
From Coq Require Import Sorted ZifyBool ZifyNat ZifyN.
Open Scope N_scope.
Set Implicit Arguments.
Unset Strict Implicit.
Set Default Proof Using "Type*".

Notation ascending := (StronglySorted N.lt).
Lemma contains_In s d : bs_contains s d = true <-> In d s.
Proof.
  unfold bs_contains. rewrite existsb_exists. split.
  - intros [x [Hx E]]. apply N.eqb_eq in E. subst. exact Hx.
  - intros H. exists d. rewrite N.eqb_refl. auto.
Qed.
Lemma contains_In_false s d : bs_contains s d = false <-> ~ In d s.
Proof. rewrite <- contains_In, not_true_iff_false. reflexivity. Qed.
Lemma add_In d s e : In e (bs_add d s) <-> e = d \/ In e s.
Proof.
  induction s as [|x s IH]; cbn; [intuition congruence|]. destruct (N.ltb_spec d x) as [H|H]; [cbn; intuition congruence|].
  destruct (N.eqb_spec d x) as [->|Hne]; cbn; [intuition congruence|]. rewrite IH. intuition congruence.
Qed.
Lemma add_sorted d s : ascending s -> ascending (bs_add d s).
Proof.
  intros H. induction H as [|x s H IH Hall]; cbn; [repeat constructor|]. destruct (N.ltb_spec d x) as [Hlt|Hge].
  - constructor; [constructor; assumption|]. constructor; [exact Hlt|]. rewrite Forall_forall in *. intros y Hy. specialize (Hall y Hy). lia.
  - destruct (N.eqb_spec d x) as [->|Hne]; [constructor; assumption|]. constructor; [exact IH|]. rewrite Forall_forall in *. intros y Hy.
    apply add_In in Hy. destruct Hy as [->|Hy]; [lia|apply Hall, Hy].
Qed.
Lemma filter_sorted p s : ascending s -> ascending (filter p s).
Proof.
  intros H. induction H as [|x s H IH Hall]; cbn; [constructor|]. destruct (p x); [|exact IH]. constructor; [exact IH|].
  rewrite Forall_forall in *. intros y Hy. apply filter_In in Hy. apply Hall, Hy.
Qed.
Lemma union_In s t d : In d (bs_union s t) <-> In d s \/ In d t.
Proof. induction s as [|x s IH]; cbn; [intuition|]. rewrite add_In, IH. intuition congruence. Qed.
Lemma union_sorted s t : ascending t -> ascending (bs_union s t).
Proof. intros H. induction s as [|x s IH]; cbn; [exact H|]. apply add_sorted, IH. Qed.
Lemma inter_In s t d : In d (bs_intersection s t) <-> In d s /\ In d t.
Proof. unfold bs_intersection. rewrite filter_In, contains_In. reflexivity. Qed.
Lemma diff_In s t d : In d (bs_difference s t) <-> In d s /\ ~ In d t.
Proof. unfold bs_difference. rewrite filter_In, negb_true_iff, contains_In_false. reflexivity. Qed.
Lemma symdiff_In s t d : In d (bs_symmetric_difference s t) <-> (In d s /\ ~ In d t) \/ (In d t /\ ~ In d s).
Proof. unfold bs_symmetric_difference. rewrite union_In, !diff_In. reflexivity. Qed.
Lemma sorted_ext s : forall t, ascending s -> ascending t -> (forall d, In d s <-> In d t) -> s = t.
Proof.
  induction s as [|x s IH]; intros [|y t] Hs Ht H.
  - reflexivity.
  - exfalso. apply (proj2 (H y)). left; reflexivity.
  - exfalso. apply (proj1 (H x)). left; reflexivity.
  - inversion Hs as [|? ? Hs1 Hs2]; inversion Ht as [|? ? Ht1 Ht2]; subst. rewrite Forall_forall in *.
    assert (x = y) as ->.
    { destruct (proj1 (H x) (or_introl eq_refl)) as [E|Hx]; [auto|]. destruct (proj2 (H y) (or_introl eq_refl)) as [E|Hy]; [auto|].
      specialize (Ht2 _ Hx). specialize (Hs2 _ Hy). lia. }
    f_equal. apply IH; auto. intros d. split; intros Hd.
    + destruct (proj1 (H d) (or_intror Hd)) as [E|G]; [|exact G]. subst d. specialize (Hs2 _ Hd). lia.
    + destruct (proj2 (H d) (or_intror Hd)) as [E|G]; [|exact G]. subst d. specialize (Ht2 _ Hd). lia.
Qed.
Lemma bs_eq_iff s : forall t, bs_eq s t = true <-> s = t.
Proof.
  induction s as [|x s IH]; intros [|y t]; cbn; try (split; [discriminate|discriminate]); [split; reflexivity|].
  rewrite andb_true_iff, N.eqb_eq, IH. split; [intros [-> ->]; reflexivity|]. intros H. injection H as -> ->. auto.
Qed.
Lemma bs_cmp_Eq s : forall t, bs_cmp s t = Eq <-> s = t.
Proof.
  induction s as [|x s IH]; intros [|y t]; cbn; try (split; [discriminate|discriminate]); [split; reflexivity|].
  destruct (N.compare_spec x y) as [->|H|H].
  - rewrite IH. split; [intros ->; reflexivity|]. intros H. injection H as ->. reflexivity.
  - split; [discriminate|]. intros G. injection G as -> ->. lia.
  - split; [discriminate|]. intros G. injection G as -> ->. lia.
Qed.
Lemma bs_cmp_sym s : forall t, bs_cmp t s = CompOpp (bs_cmp s t).
Proof.
  induction s as [|x s IH]; intros [|y t]; cbn; try reflexivity. rewrite (N.compare_antisym x y). destruct (x ?= y); cbn; auto.
Qed.
Lemma bs_cmp_trans s : forall t u, bs_cmp s t = Lt -> bs_cmp t u = Lt -> bs_cmp s u = Lt.
Proof.
  induction s as [|x s IH]; intros [|y t] [|z u]; cbn; try discriminate; auto.
  destruct (N.compare_spec x y) as [->|H1|H1]; try discriminate.
  - destruct (y ?= z); auto. apply IH.
  - intros _. destruct (N.compare_spec y z) as [->|H2|H2]; try discriminate.
    + intros _. rewrite (proj2 (N.compare_lt_iff _ _) H1). reflexivity.
    + intros _. rewrite (proj2 (N.compare_lt_iff _ _) (N.lt_trans _ _ _ H1 H2)). reflexivity.
Qed.
Lemma bs_cmp_Lt s : forall t, ascending s -> ascending t -> (bs_cmp s t = Lt <->
  exists d, (forall e, e < d -> (In e s <-> In e t)) /\
    ((~ In d s /\ In d t /\ forall e, In e s -> e < d) \/ (In d s /\ ~ In d t /\ exists e, In e t /\ d < e))).
Proof.
  induction s as [|x s IH]; intros [|y t] Hs Ht; cbn [bs_cmp].
  - split; [discriminate|]. intros [d [_ [[_ [[] _]]|[[] _]]]].
  - inversion Ht as [|? ? Ht1 Ht2]; subst. rewrite Forall_forall in Ht2. split; [|reflexivity]. intros _. exists y. split.
    + intros e He. split; [intros []|]. intros [->|H]; [lia|]. specialize (Ht2 e H). lia.
    + left. split; [intros []|]. split; [left; reflexivity|]. intros e [].
  - split; [discriminate|]. intros [d [_ [[_ [[] _]]|[_ [_ [e [[] _]]]]]]].
  - inversion Hs as [|? ? Hs1 Hs2]; inversion Ht as [|? ? Ht1 Ht2]; subst. rewrite Forall_forall in Hs2, Ht2.
    destruct (N.compare_spec x y) as [->|H|H].
    + rewrite (IH t Hs1 Ht1). split; intros [d [Ha Hb]]; exists d.
      * assert (Hd : y < d) by (destruct Hb as [[_ [H _]]|[H _]]; auto). split.
        -- intros e He. specialize (Ha e He). cbn. tauto.
        -- cbn. destruct Hb as [[B1 [B2 B3]]|[B1 [B2 [e [B3 B4]]]]].
           ++ left. split; [intros [G|G]; [lia|tauto]|]. split; [auto|]. intros e [<-|G]; auto.
           ++ right. split; [auto|]. split; [intros [G|G]; [lia|tauto]|]. exists e. auto.
      * assert (Hd : y < d).
        { destruct Hb as [[B1 [[->|B2] _]]|[[->|B1] [B2 _]]]; auto; [destruct B1; left; reflexivity|destruct B2; left; reflexivity]. }
        split.
        -- intros e He. specialize (Ha e He). cbn in Ha. split; intros G.
           ++ destruct (proj1 Ha (or_intror G)) as [<-|]; [|assumption]. specialize (Hs2 _ G). lia.
           ++ destruct (proj2 Ha (or_intror G)) as [<-|]; [|assumption]. specialize (Ht2 _ G). lia.
        -- cbn in Hb. destruct Hb as [[B1 [B2 B3]]|[B1 [B2 [e [B3 B4]]]]].
           ++ left. split; [tauto|]. split; [destruct B2; [lia|assumption]|]. auto.
           ++ right. split; [destruct B1; [lia|assumption]|]. split; [tauto|]. exists e. split; [destruct B3; [lia|assumption]|exact B4].
    + split; [|reflexivity]. intros _. exists x. split.
      * intros e He. cbn. split; (intros [G|G]; [lia|]); [specialize (Hs2 e G)|specialize (Ht2 e G)]; lia.
      * right. cbn. split; [auto|]. split; [|exists y; auto]. intros [G|G]; [lia|]. specialize (Ht2 x G). lia.
    + split; [discriminate|]. intros [d [Ha Hb]]. exfalso.
      assert (Hd : d <= y).
      { destruct (N.le_gt_cases d y) as [|G]; [assumption|]. destruct (proj2 (Ha y G) (or_introl eq_refl)) as [->|F]; [lia|]. specialize (Hs2 y F). lia. }
      cbn in Hb. destruct Hb as [[_ [_ B3]]|[[G|G] _]]; [specialize (B3 x (or_introl eq_refl)); lia|lia|specialize (Hs2 d G); lia].
Qed.
Lemma sorted_NoDup s : ascending s -> NoDup s.
Proof.
  intros H. induction H as [|x s H IH Hall]; constructor; [|exact IH]. rewrite Forall_forall in Hall. intros Hx. specialize (Hall _ Hx). lia.
Qed.

Section Sets.
  Context {T : Type} (E : enumlike T).
  Hypothesis Hlaw : lawful E.

  (** A set of values: every number in it is the number of a value. *)
  Definition set_ok (s : set) : Prop := ascending s /\ forall d, In d s -> exists x, to_d E x = d.
  Notation has s x := (set_contains E s x = true).

  Lemma has_In s x : has s x <-> In (to_d E x) s.
  Proof using Type. apply contains_In. Qed.
  Lemma to_inj x y : to_d E x = to_d E y -> x = y.
  Proof. intros H. pose proof (proj2 Hlaw x) as L1. pose proof (proj2 Hlaw y) as L2. rewrite H in L1. congruence. Qed.
  Lemma has_ext s t : set_ok s -> set_ok t -> (forall x, has s x <-> has t x) -> s = t.
  Proof using Type.
    intros [S1 S2] [T1 T2] H. apply sorted_ext; auto. intros d. split; intros Hd.
    - destruct (S2 _ Hd) as [x <-]. apply has_In, H, has_In, Hd.
    - destruct (T2 _ Hd) as [x <-]. apply has_In, H, has_In, Hd.
  Qed.

  Lemma ok_new : set_ok set_new.
  Proof using Type. split; [constructor|]. intros d []. Qed.
  Lemma insert_ok x s : set_ok s ->
    exists s', set_insert E x s = (Ret (negb (set_contains E s x)), s') /\ set_ok s' /\ forall y, has s' y <-> y = x \/ has s y.
  Proof.
    intros [H1 H2]. exists (bs_add (to_d E x) s). split; [reflexivity|]. split.
    - split; [apply add_sorted, H1|]. intros d Hd. apply add_In in Hd. destruct Hd as [->|Hd]; eauto.
    - intros y. rewrite !has_In, add_In. split; (intros [G|G]; [left|right; exact G]); [apply to_inj, G|rewrite G; reflexivity].
  Qed.
  Lemma remove_ok x s : set_ok s ->
    exists s', set_remove E x s = (Ret (set_contains E s x), s') /\ set_ok s' /\ forall y, has s' y <-> y <> x /\ has s y.
  Proof.
    intros [H1 H2]. exists (filter (fun e => negb (e =? to_d E x)) s). split; [reflexivity|]. split.
    - split; [apply filter_sorted, H1|]. intros d Hd. apply filter_In in Hd. apply H2, Hd.
    - intros y. rewrite !has_In, filter_In, negb_true_iff, N.eqb_neq. split.
      + intros [G1 G2]. split; [intros ->; apply G2; reflexivity|exact G1].
      + intros [G1 G2]. split; [exact G2|]. intros G. apply G1, to_inj, G.
  Qed.
  Lemma extend_ok xs p : forall s, set_ok s ->
    exists s', set_extend E xs p s = (if p then Panic PUser else Ret tt, s') /\ set_ok s' /\ forall y, has s' y <-> In y xs \/ has s y.
  Proof.
    induction xs as [|x xs IH]; intros s Hs.
    - exists s. split; [destruct p; reflexivity|]. split; [exact Hs|]. cbn. intuition.
    - destruct (insert_ok x Hs) as [s1 [E1 [O1 M1]]]. destruct (IH s1 O1) as [s2 [E2 [O2 M2]]]. exists s2.
      cbn [set_extend]. unfold bind. rewrite E1. split; [exact E2|]. split; [exact O2|]. intros y. rewrite M2, M1. cbn. intuition congruence.
  Qed.
  Lemma from_iter_ok xs : exists s, set_from_iter E xs false = Ret s /\ set_ok s /\ forall y, has s y <-> In y xs.
  Proof.
    destruct (extend_ok xs false ok_new) as [s [E1 [O1 M1]]]. exists s. unfold set_from_iter. rewrite E1. split; [reflexivity|]. split; [exact O1|].
    intros y. rewrite M1. split; [intros [G|G]; [exact G|discriminate]|auto].
  Qed.
  Lemma from_iter_panics xs : set_from_iter E xs true = Panic PUser.
  Proof. destruct (extend_ok xs true ok_new) as [s [E1 _]]. unfold set_from_iter. rewrite E1. reflexivity. Qed.

  (** listing a set of numbers of values *)
  Lemma listing (s : list N) : set_ok s -> exists l, s = map (to_d E) l.
  Proof using Type.
    intros [_ H]. induction s as [|d s IH]; [exists []; reflexivity|]. destruct (H d (or_introl eq_refl)) as [x Hx].
    destruct IH as [l Hl]; [intros e He; apply H; right; exact He|]. exists (x :: l). cbn. congruence.
  Qed.
  Lemma listing_facts s l : set_ok s -> s = map (to_d E) l ->
    NoDup l /\ StronglySorted (fun x y => to_d E x < to_d E y) l /\ (forall x, In x l <-> has s x) /\ lenN l = set_len s.
  Proof.
    intros Hok Hl. assert (Hasc : ascending (map (to_d E) l)) by (rewrite <- Hl; apply Hok).
    split; [|split; [|split]].
    - apply (NoDup_map_inv (to_d E)). apply sorted_NoDup, Hasc.
    - clear - Hasc. induction l as [|x l IH]; [constructor|]. cbn in Hasc. inversion Hasc as [|? ? H1 H2]; subst. constructor; [apply IH, H1|].
      rewrite Forall_forall in *. intros y Hy. apply H2, in_map, Hy.
    - intros x. rewrite has_In, Hl, in_map_iff. split; [eauto|]. intros [y [Hy H]]. apply to_inj in Hy. subst. exact H.
    - unfold set_len. rewrite Hl. unfold lenN. rewrite map_length. reflexivity.
  Qed.
  Lemma wrap_run_ok n : forall l : list T,
    fst (wrap_run E n (map (to_d E) l)) = Ret (map Some (firstn n l) ++ repeat None (n - length l)).
  Proof.
    induction n as [|n IH]; intros l; [reflexivity|]. cbn [wrap_run]. unfold bind at 1. destruct l as [|x l].
    - cbn. specialize (IH []). rewrite firstn_nil in IH. cbn in IH. unfold bind. destruct (wrap_run E n []) as [[r|k| |] s]; cbn in IH; try discriminate.
      injection IH as ->. rewrite Nat.sub_0_r. reflexivity.
    - cbn. unfold from_discr. rewrite (proj2 Hlaw x). specialize (IH l). unfold bind.
      destruct (wrap_run E n (map (to_d E) l)) as [[r|k| |] s]; cbn in IH; try discriminate. injection IH as ->. reflexivity.
  Qed.

  Lemma union_ok s t : set_ok s -> set_ok t -> set_ok (bs_union s t) /\ forall x, has (bs_union s t) x <-> has s x \/ has t x.
  Proof using Type.
    intros [S1 S2] [T1 T2]. split; [|intros x; rewrite !has_In; apply union_In]. split; [apply union_sorted, T1|].
    intros d Hd. apply union_In in Hd. destruct Hd; auto.
  Qed.
  Lemma inter_ok s t : set_ok s -> set_ok t -> set_ok (bs_intersection s t) /\ forall x, has (bs_intersection s t) x <-> has s x /\ has t x.
  Proof using Type.
    intros [S1 S2] [T1 T2]. split; [|intros x; rewrite !has_In; apply inter_In]. split; [apply filter_sorted, S1|].
    intros d Hd. apply inter_In in Hd. apply S2, Hd.
  Qed.
  Lemma diff_ok s t : set_ok s -> set_ok t -> set_ok (bs_difference s t) /\ forall x, has (bs_difference s t) x <-> has s x /\ ~ has t x.
  Proof using Type.
    intros [S1 S2] [T1 T2]. split; [|intros x; rewrite !has_In; apply diff_In]. split; [apply filter_sorted, S1|].
    intros d Hd. apply diff_In in Hd. apply S2, Hd.
  Qed.
  Lemma symdiff_ok s t : set_ok s -> set_ok t -> set_ok (bs_symmetric_difference s t) /\
    forall x, has (bs_symmetric_difference s t) x <-> (has s x /\ ~ has t x) \/ (has t x /\ ~ has s x).
  Proof using Type.
    intros Hs Ht. destruct (union_ok (proj1 (diff_ok Hs Ht)) (proj1 (diff_ok Ht Hs))) as [H _].
    split; [exact H|]. intros x. rewrite !has_In. apply symdiff_In.
  Qed.
  Lemma subset_ok s t : set_ok s -> (set_is_subset s t = true <-> forall x, has s x -> has t x).
  Proof using Type.
    intros [S1 S2]. unfold set_is_subset, bs_is_subset. rewrite forallb_forall. split.
    - intros H x Hx. apply H. apply has_In, Hx.
    - intros H d Hd. destruct (S2 _ Hd) as [x <-]. apply H. apply has_In, Hd.
  Qed.
  Lemma disjoint_ok s t : set_ok s -> (set_is_disjoint s t = true <-> forall x, ~ (has s x /\ has t x)).
  Proof using Type.
    intros [S1 S2]. unfold set_is_disjoint, bs_is_disjoint. rewrite forallb_forall. split.
    - intros H x [Hx Hy]. apply has_In in Hx. specialize (H _ Hx). unfold set_contains in Hy. rewrite Hy in H. discriminate.
    - intros H d Hd. destruct (S2 _ Hd) as [x <-]. apply negb_true_iff. destruct (bs_contains t (to_d E x)) eqn:G; [|reflexivity].
      exfalso. apply (H x). split; [apply has_In, Hd|exact G].
  Qed.
  Lemma empty_ok s : set_ok s -> (set_is_empty s = true <-> forall x, ~ has s x).
  Proof using Type.
    intros [S1 S2]. destruct s as [|d s]; cbn; [split; [intros _ x; discriminate|reflexivity]|]. split; [discriminate|].
    intros H. destruct (S2 d (or_introl eq_refl)) as [x Hx]. exfalso. apply (H x). rewrite Hx, N.eqb_refl. reflexivity.
  Qed.
  Lemma eq_ok s t : set_ok s -> set_ok t -> (set_eq s t = true <-> forall x, has s x <-> has t x).
  Proof using Type.
    intros Hs Ht. unfold set_eq. rewrite bs_eq_iff. split; [intros ->; reflexivity|]. intros H. apply has_ext; auto.
  Qed.

  (** every program *)
  Definition bits_ok (o : sop T) : Prop := match o with SFromBits b => set_ok b | _ => True end.
  Lemma put_ok p r s : Forall set_ok p -> set_ok s -> Forall set_ok (put p r s).
  Proof using Type. intros H Hs. revert r. induction H as [|t p Ht H IH]; intros [|r]; cbn; constructor; auto. Qed.
  Lemma on_ok A p r (m : M set A) : Forall set_ok p -> (forall s, set_ok s -> set_ok (snd (m s))) -> Forall set_ok (on p r m).
  Proof using Type.
    intros H Hm. unfold on. destruct (nth_error p r) as [s|] eqn:Er; [|exact H]. apply put_ok; [exact H|]. apply Hm.
    rewrite Forall_forall in H. apply H. apply (nth_error_In _ _ Er).
  Qed.
  Theorem step_ok p o : Forall set_ok p -> bits_ok o -> Forall set_ok (sstep E p o).
  Proof.
    intros H Ho. pose proof H as H0. rewrite Forall_forall in H0.
    assert (Hsnoc : forall s, set_ok s -> Forall set_ok (p ++ [s])) by (intros s Hs; apply Forall_app; auto).
    destruct o; cbn [sstep].
    - apply Hsnoc, ok_new.
    - destruct panics; [rewrite from_iter_panics; exact H|]. destruct (from_iter_ok xs) as [s [-> [Hs _]]]. apply Hsnoc, Hs.
    - apply Hsnoc, Ho.
    - destruct (nth_error p r) as [s|] eqn:Er; [|exact H]. apply Hsnoc, H0, (nth_error_In _ _ Er).
    - apply (on_ok r H). intros s Hs. destruct (insert_ok x Hs) as [s' [-> [Hs' _]]]. exact Hs'.
    - apply (on_ok r H). intros s Hs. destruct (remove_ok x Hs) as [s' [-> [Hs' _]]]. exact Hs'.
    - apply (on_ok r H). intros s Hs. apply ok_new.
    - apply (on_ok r H). intros s Hs. exact Hs.
    - apply (on_ok r H). intros s Hs. destruct (extend_ok xs panics Hs) as [s' [-> [Hs' _]]]. exact Hs'.
    - destruct (nth_error p r2) as [t|] eqn:Er; [|exact H]. apply (on_ok r H). intros s Hs. apply (union_ok Hs (H0 _ (nth_error_In _ _ Er))).
    - destruct (nth_error p r2) as [t|] eqn:Er; [|exact H]. apply (on_ok r H). intros s Hs. apply (inter_ok Hs (H0 _ (nth_error_In _ _ Er))).
    - destruct (nth_error p r2) as [t|] eqn:Er; [|exact H]. apply (on_ok r H). intros s Hs. apply (diff_ok Hs (H0 _ (nth_error_In _ _ Er))).
    - destruct (nth_error p r2) as [t|] eqn:Er; [|exact H]. apply (on_ok r H). intros s Hs. apply (symdiff_ok Hs (H0 _ (nth_error_In _ _ Er))).
  Qed.
  Theorem srun_ok os : forall p, Forall set_ok p -> Forall bits_ok os -> Forall set_ok (srun E p os).
  Proof.
    induction os as [|o os IH]; intros p Hp Ho; [exact Hp|]. inversion Ho; subst. cbn. apply IH; [apply step_ok; assumption|assumption].
  Qed.
End Sets.
