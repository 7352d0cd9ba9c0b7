(** PropSet.v -- C36, C37, C43: EnumSet.  What a set contains is what contains() says. *)
From Verif Require Import EdgeFacts ProgFacts SetFacts EnumSet.
From Coq Require Import Sorted.
Open Scope N_scope.

(** A program that leaves two sets of 5-variant elements, {0,2,3} and {3,4}. *)
Definition set_demo : list (sop (Fin 5)) :=
  [SNew; SInsert 0 (f5 2); SInsert 0 (f5 3); SInsert 0 (f5 0); SInsert 0 (f5 2); SFromIter (map f5 [3; 4; 1; 3]) false;
   SRemove 1 (f5 1); SExtend 1 (map f5 [4]) true; SClone 0; SUnionWith 2 1; SIntersectWith 2 0; SClear 2; SShrink 0].
Definition s0 : set := nth 0 (srun (fin 5) [] set_demo) [].
Definition s1 : set := nth 1 (srun (fin 5) [] set_demo) [].

(** Sets obtained by any program.  [bits_ok]: from_bit_set is only given numbers of values. *)
Definition reachable {T} (E : enumlike T) (s : set) : Prop :=
  exists prog, Forall (bits_ok E) prog /\ In s (srun E [] prog).
Lemma reach {T} (E : enumlike T) s : lawful E -> reachable E s -> set_ok E s.
Proof.
  intros HE [prog [Hb Hin]]. pose proof (srun_ok HE (Forall_nil _) Hb) as H. rewrite Forall_forall in H. exact (H _ Hin).
Qed.
Lemma reachable_ok {T} (E : enumlike T) s : lawful E -> set_ok E s -> reachable E s.
Proof. intros HE Hs. exists [SFromBits s]. split; [repeat constructor; apply Hs|]. left. reflexivity. Qed.
Example sets_example : lawful (fin 5) /\ reachable (fin 5) s0 /\ reachable (fin 5) s1 /\
  map (set_contains (fin 5) s0) (map f5 [0; 1; 2; 3; 4]) = [true; false; true; true; false] /\
  map (set_contains (fin 5) s1) (map f5 [0; 1; 2; 3; 4]) = [false; false; false; true; true].
Proof.
  split; [apply fin_lawful|]. split; [|split; [|split; reflexivity]].
  - exists set_demo. split; [repeat constructor|]. left. reflexivity.
  - exists set_demo. split; [repeat constructor|]. right. left. reflexivity.
Qed.

Section Sets.
Context {T : Type} (E : enumlike T).
Notation "x 'in_' s" := (set_contains E s x = true) (at level 70).

(** ** C36: membership *)
Theorem C36_new : forall x, set_contains E set_new x = false.
Proof. exact (fun x => eq_refl). Qed.
Theorem C36_insert : lawful E -> forall s x, reachable E s ->
  exists s', set_insert E x s = (Ret (negb (set_contains E s x)), s') /\ reachable E s' /\
    forall y, y in_ s' <-> y = x \/ y in_ s.
Proof.
  intros HE s x Hs. destruct (insert_ok HE x (reach E s HE Hs)) as [s' [H1 [H2 H3]]]. exists s'. split; [exact H1|]. split; [exact (reachable_ok E s' HE H2)|exact H3].
Qed.
Theorem C36_remove : lawful E -> forall s x, reachable E s ->
  exists s', set_remove E x s = (Ret (set_contains E s x), s') /\ reachable E s' /\
    forall y, y in_ s' <-> y <> x /\ y in_ s.
Proof.
  intros HE s x Hs. destruct (remove_ok HE x (reach E s HE Hs)) as [s' [H1 [H2 H3]]]. exists s'. split; [exact H1|]. split; [exact (reachable_ok E s' HE H2)|exact H3].
Qed.
(** extend and FromIterator; the iterator may panic after yielding xs *)
Theorem C36_extend : lawful E -> forall s xs panics, reachable E s ->
  exists s', set_extend E xs panics s = (if panics then Panic PUser else Ret tt, s') /\ reachable E s' /\
    forall y, y in_ s' <-> In y xs \/ y in_ s.
Proof.
  intros HE s xs p Hs. destruct (extend_ok HE xs p (reach E s HE Hs)) as [s' [H1 [H2 H3]]]. exists s'. split; [exact H1|]. split; [exact (reachable_ok E s' HE H2)|exact H3].
Qed.
Theorem C36_from_iter : lawful E -> forall xs,
  exists s, set_from_iter E xs false = Ret s /\ reachable E s /\ forall y, y in_ s <-> In y xs.
Proof.
  intros HE xs. destruct (from_iter_ok HE xs) as [s' [H1 [H2 H3]]]. exists s'. split; [exact H1|]. split; [exact (reachable_ok E s' HE H2)|exact H3].
Qed.
Theorem C36_clear : forall s, exists s', set_clear s = (Ret tt, s') /\ forall x, set_contains E s' x = false.
Proof. exact (fun s => ex_intro _ [] (conj eq_refl (fun x => eq_refl))). Qed.
(** len is the number of members: l lists them once each *)
Theorem C36_len : lawful E -> forall s, reachable E s ->
  exists l, NoDup l /\ (forall x, In x l <-> x in_ s) /\ set_len s = lenN l.
Proof.
  intros HE s Hs. pose proof (reach E s HE Hs) as Hok. destruct (listing Hok) as [l Hl]. destruct (listing_facts HE Hok Hl) as [H1 [_ [H3 H4]]].
  exact (ex_intro _ l (conj H1 (conj H3 (eq_sym H4)))).
Qed.
Theorem C36_is_empty : lawful E -> forall s, reachable E s -> (set_is_empty s = true <-> forall x, ~ x in_ s).
Proof. intros HE s Hs. exact (empty_ok (reach E s HE Hs)). Qed.
(** derived Eq, Ord and Hash *)
Theorem C36_eq : lawful E -> forall s t, reachable E s -> reachable E t ->
  (set_eq s t = true <-> forall x, x in_ s <-> x in_ t) /\
  (set_cmp s t = Eq <-> forall x, x in_ s <-> x in_ t) /\
  (set_hash s = set_hash t <-> forall x, x in_ s <-> x in_ t).
Proof.
  intros HE s t Hs Ht. pose proof (reach E s HE Hs) as Os. pose proof (reach E t HE Ht) as Ot. split; [exact (eq_ok Os Ot)|].
  rewrite bs_cmp_Eq. split; (split; [intros G; unfold set_hash in G; subst; reflexivity|exact (has_ext Os Ot)]).
Qed.
Theorem C36_order : forall s t u : set, set_cmp t s = CompOpp (set_cmp s t) /\
  (set_cmp s t = Lt -> set_cmp t u = Lt -> set_cmp s u = Lt).
Proof. intros s t u. split; [exact (bs_cmp_sym s t)|exact (@bs_cmp_trans s t u)]. Qed.

(** The order, in terms of members: with x the least value that only one of the sets has,
    s < t iff t has x and s has nothing greater, or s has x and t has something greater. *)
Theorem C36_order_exact : lawful E -> forall s t, reachable E s -> reachable E t ->
  (set_cmp s t = Lt <-> exists x, (forall y, to_d E y < to_d E x -> (y in_ s <-> y in_ t)) /\
    ((~ x in_ s /\ x in_ t /\ forall y, y in_ s -> to_d E y < to_d E x) \/
     (x in_ s /\ ~ x in_ t /\ exists y, y in_ t /\ to_d E x < to_d E y))).
Proof.
  intros HE s t Hs Ht. destruct (reach E s HE Hs) as [S1 S2]. destruct (reach E t HE Ht) as [T1 T2]. unfold set_cmp. rewrite (bs_cmp_Lt S1 T1). split.
  - intros [d [Ha Hb]]. assert (exists x, to_d E x = d) as [x <-] by (destruct Hb as [[_ [H _]]|[H _]]; auto). exists x.
    rewrite !has_In. split; [intros y Hy; rewrite !has_In; auto|]. destruct Hb as [[B1 [B2 B3]]|[B1 [B2 [e [B3 B4]]]]].
    + left. split; [exact B1|]. split; [exact B2|]. intros y Hy. apply has_In in Hy. auto.
    + right. split; [exact B1|]. split; [exact B2|]. destruct (T2 e B3) as [y <-]. exists y. rewrite has_In. auto.
  - intros [x [Ha Hb]]. rewrite !has_In in Hb. exists (to_d E x). split.
    + intros e He. split; intros H; [destruct (S2 e H) as [y <-]|destruct (T2 e H) as [y <-]]; apply has_In, (Ha y He), has_In, H.
    + destruct Hb as [[B1 [B2 B3]]|[B1 [B2 [y [B3 B4]]]]].
      * left. split; [exact B1|]. split; [exact B2|]. intros e H. destruct (S2 e H) as [y <-]. apply B3, has_In, H.
      * right. split; [exact B1|]. split; [exact B2|]. exists (to_d E y). apply has_In in B3. auto.
Qed.

(** ** C37: algebra and iteration *)
(** n calls of next on an iterator: the values of l, in the order of their numbers, then None *)
Definition yields (i : wrap) (l : list T) : Prop :=
  StronglySorted (fun x y => to_d E x < to_d E y) l /\
  forall n, fst (wrap_run E n i) = Ret (map Some (firstn n l) ++ repeat None (n - length l)).
Lemma yields_set : lawful E -> forall s, set_ok E s -> exists l, yields s l /\ forall x, In x l <-> x in_ s.
Proof.
  intros HE s Hs. destruct (listing Hs) as [l Hl]. destruct (listing_facts HE Hs Hl) as [_ [H2 [H3 _]]]. exists l. split; [|exact H3].
  split; [exact H2|]. intros n. rewrite Hl. exact (wrap_run_ok HE n l).
Qed.
Theorem C37_iter : lawful E -> forall s, reachable E s -> exists l, yields (set_iter s) l /\ forall x, In x l <-> x in_ s.
Proof. intros HE s Hs. exact (yields_set HE s (reach E s HE Hs)). Qed.
Theorem C37_union : lawful E -> forall s t, reachable E s -> reachable E t ->
  (exists l, yields (set_union s t) l /\ forall x, In x l <-> x in_ s \/ x in_ t) /\
  exists s', set_union_with t s = (Ret tt, s') /\ reachable E s' /\ forall x, x in_ s' <-> x in_ s \/ x in_ t.
Proof.
  intros HE s t Hs Ht. destruct (union_ok (reach E s HE Hs) (reach E t HE Ht)) as [H1 H2]. split.
  - destruct (yields_set HE _ H1) as [l [Y1 Y2]]. exists l. split; [exact Y1|]. intros x. rewrite Y2. exact (H2 x).
  - exists (bs_union s t). split; [reflexivity|]. split; [exact (reachable_ok E _ HE H1)|exact H2].
Qed.
Theorem C37_intersection : lawful E -> forall s t, reachable E s -> reachable E t ->
  (exists l, yields (set_intersection s t) l /\ forall x, In x l <-> x in_ s /\ x in_ t) /\
  exists s', set_intersect_with t s = (Ret tt, s') /\ reachable E s' /\ forall x, x in_ s' <-> x in_ s /\ x in_ t.
Proof.
  intros HE s t Hs Ht. destruct (inter_ok (reach E s HE Hs) (reach E t HE Ht)) as [H1 H2]. split.
  - destruct (yields_set HE _ H1) as [l [Y1 Y2]]. exists l. split; [exact Y1|]. intros x. rewrite Y2. exact (H2 x).
  - exists (bs_intersection s t). split; [reflexivity|]. split; [exact (reachable_ok E _ HE H1)|exact H2].
Qed.
Theorem C37_difference : lawful E -> forall s t, reachable E s -> reachable E t ->
  (exists l, yields (set_difference s t) l /\ forall x, In x l <-> x in_ s /\ ~ x in_ t) /\
  exists s', set_difference_with t s = (Ret tt, s') /\ reachable E s' /\ forall x, x in_ s' <-> x in_ s /\ ~ x in_ t.
Proof.
  intros HE s t Hs Ht. destruct (diff_ok (reach E s HE Hs) (reach E t HE Ht)) as [H1 H2]. split.
  - destruct (yields_set HE _ H1) as [l [Y1 Y2]]. exists l. split; [exact Y1|]. intros x. rewrite Y2. exact (H2 x).
  - exists (bs_difference s t). split; [reflexivity|]. split; [exact (reachable_ok E _ HE H1)|exact H2].
Qed.
Theorem C37_symmetric_difference : lawful E -> forall s t, reachable E s -> reachable E t ->
  (exists l, yields (set_symmetric_difference s t) l /\ forall x, In x l <-> (x in_ s /\ ~ x in_ t) \/ (x in_ t /\ ~ x in_ s)) /\
  exists s', set_symmetric_difference_with t s = (Ret tt, s') /\ reachable E s' /\
    forall x, x in_ s' <-> (x in_ s /\ ~ x in_ t) \/ (x in_ t /\ ~ x in_ s).
Proof.
  intros HE s t Hs Ht. destruct (symdiff_ok (reach E s HE Hs) (reach E t HE Ht)) as [H1 H2]. split.
  - destruct (yields_set HE _ H1) as [l [Y1 Y2]]. exists l. split; [exact Y1|]. intros x. rewrite Y2. exact (H2 x).
  - exists (bs_symmetric_difference s t). split; [reflexivity|]. split; [exact (reachable_ok E _ HE H1)|exact H2].
Qed.
Theorem C37_predicates : lawful E -> forall s t, reachable E s -> reachable E t ->
  (set_is_subset s t = true <-> forall x, x in_ s -> x in_ t) /\
  (set_is_superset s t = true <-> forall x, x in_ t -> x in_ s) /\
  (set_is_disjoint s t = true <-> forall x, ~ (x in_ s /\ x in_ t)).
Proof.
  intros HE s t Hs Ht. split; [exact (subset_ok t (reach E s HE Hs))|]. split; [exact (subset_ok s (reach E t HE Ht))|exact (disjoint_ok t (reach E s HE Hs))].
Qed.
End Sets.
Example C36_order_example : set_cmp s0 s1 = Lt /\ set_cmp s1 s0 = Gt /\ set_cmp s0 s0 = Eq /\
  set_cmp [0; 2] s0 = Lt /\ reachable (fin 5) [0; 2].
Proof.
  repeat (split; [reflexivity|]). apply reachable_ok; [apply fin_lawful|]. split; [repeat constructor|].
  intros d [<-|[<-|[]]]; [exists (f5 0)|exists (f5 2)]; reflexivity.
Qed.
Example C37_example :
  fst (wrap_run (fin 5) 5 (set_union s0 s1)) = Ret (map Some (map f5 [0; 2; 3; 4]) ++ [None]) /\
  fst (wrap_run (fin 5) 3 (set_symmetric_difference s0 s1)) = Ret (map Some (map f5 [0; 2; 4])) /\
  set_is_subset s1 s0 = false /\ set_is_disjoint s0 s1 = false /\ set_len s0 = 3 /\
  fst (set_insert (fin 5) (f5 2) s0) = Ret false /\ fst (set_remove (fin 5) (f5 4) s1) = Ret true.
Proof. vm_compute. repeat split. Qed.

(** ** C43: sets made by from_bit_set *)
(** missing: bit sets with numbers that no value has *)
Theorem C43_iterates_partial : forall T (E : enumlike T), lawful E -> forall s, reachable E s ->
  exists l, fst (wrap_run E (N.to_nat (set_len s) + 1) (set_iter s)) = Ret (map Some l ++ [None]).
Proof.
  intros T E HE s Hs. pose proof (reach E s HE Hs) as Hok. destruct (listing Hok) as [l Hl]. destruct (listing_facts HE Hok Hl) as [_ [_ [_ H4]]].
  exists l. unfold set_iter. rewrite <- H4. pose proof (wrap_run_ok HE (N.to_nat (lenN l) + 1) l) as H. rewrite <- Hl in H. rewrite H.
  unfold lenN. rewrite Nat2N.id. rewrite firstn_all2 by lia. replace (length l + 1 - length l)%nat with 1%nat by lia. reflexivity.
Qed.
Definition C43_full : Prop := forall T (E : enumlike T), lawful E -> forall prog s, In s (srun E [] prog) ->
  exists l, fst (wrap_run E (N.to_nat (set_len s) + 1) (set_iter s)) = Ret (map Some l ++ [None]).
Theorem C43_iterates_refuted : ~ C43_full.
Proof.
  intros H. destruct (H _ (fin 5) (fin_lawful 5) [SFromBits [1; 9]] [1; 9]) as [l Hl]; [left; reflexivity|]. vm_compute in Hl. discriminate Hl.
Qed.

(** ** C43: iterating a set of any numbers *)
(** It runs to the end exactly if from_discr accepts every number in the set. *)
Theorem C43_iterates_iff : forall T (E : enumlike T) (s : set),
  (exists l, fst (wrap_run E (N.to_nat (set_len s) + 1) (set_iter s)) = Ret l) <->
  (forall d, In d s -> exists x, from_discr E d = Ret x).
Proof. intros T E s. unfold set_iter, set_len, lenN. rewrite Nat2N.id. exact (iterates_iff E s). Qed.
(** Otherwise it yields the values of the numbers before the first one that is not accepted
    and panics there; caught, the iterator goes on after that number. *)
Theorem C43_panics_exact : forall T (E : enumlike T) s1 d s2 l, map (from_discr E) s1 = map (@Ret T) l -> (forall x, from_discr E d <> Ret x) ->
  wrap_run E (length s1) (set_iter (s1 ++ d :: s2)) = (Ret (map Some l), d :: s2) /\
  exists k, wrap_next E (d :: s2) = (Panic k, s2).
Proof.
  intros T E s1 d s2 l H Hd. split; [exact (wrap_run_prefix (d :: s2) H)|]. unfold wrap_next. unfold from_discr in *.
  destruct (from_d E d) as [x|]; [destruct (Hd x); reflexivity|]. eexists. reflexivity.
Qed.
Example C43_exact_example : map (from_discr (fin 5)) [1; 4] = map (@Ret _) [f5 1; f5 4] /\ (forall x, from_discr (fin 5) 9 <> Ret x) /\
  (forall d, In d [0; 2; 4] -> exists x, from_discr (fin 5) d = Ret x).
Proof.
  split; [vm_compute; reflexivity|]. split; [vm_compute; discriminate|]. intros d [<-|[<-|[<-|[]]]]; eexists; vm_compute; reflexivity.
Qed.
