(** SetClientFacts.v -- EnumSet against sets as predicates, for every client. *)
From Verif Require Export SetFacts SetClient.
From Coq Require Import ZifyBool ZifyNat ZifyN.
Open Scope N_scope.
Set Implicit Arguments.
Unset Strict Implicit.

Section Client.
  Context {T : Type} (E : enumlike T).
  Hypothesis HE : lawful E.
  Local Notation has s x := (set_contains E s x = true).
  (** the model's sets are the specification's *)
  Definition same (s : set) (q : @pset T) : Prop := set_ok E s /\ forall y, has s y <-> q y.
  Definition rel (p : pool) (P : list (@pset T)) : Prop := Forall2 same p P.

  Lemma rel_nth p P r : rel p P ->
    match nth_error p r, nth_error P r with Some s, Some q => same s q | None, None => True | _, _ => False end.
  Proof using Type.
    intros H. revert r. induction H as [|s q p P H0 H IH]; intros [|r]; cbn; [exact I|exact I|exact H0|exact (IH r)].
  Qed.
  Lemma rel_put p P r s q : rel p P -> same s q -> rel (put p r s) (becomes P r q).
  Proof using Type.
    intros H Hs. revert r. induction H as [|s0 q0 p P H0 H IH]; intros [|r]; cbn; constructor; auto. apply IH.
  Qed.
  Lemma rel_snoc p P s q : rel p P -> same s q -> rel (p ++ [s]) (P ++ [q]).
  Proof using Type. intros H Hs. apply Forall2_app; [exact H|]. constructor; [exact Hs|constructor]. Qed.
  Lemma rel_on A p P r (m : M set A) f : rel p P -> (forall s q, same s q -> same (snd (m s)) (f q)) -> rel (on p r m) (change P r f).
  Proof using Type.
    intros H Hm. unfold on, change. pose proof (rel_nth r H) as Hr. destruct (nth_error p r) as [s|], (nth_error P r) as [q|]; try contradiction; [|exact H].
    apply rel_put; [exact H|]. exact (Hm s q Hr).
  Qed.
  Lemma rel_on2 A p P r r2 (m : set -> M set A) f : rel p P -> (forall s t q u, same s q -> same t u -> same (snd (m t s)) (f q u)) ->
    rel (match nth_error p r2 with Some t => on p r (m t) | None => p end) (change2 P r r2 f).
  Proof using Type.
    intros H Hm. unfold change2. pose proof (rel_nth r2 H) as Hr. destruct (nth_error p r2) as [t|], (nth_error P r2) as [u|]; try contradiction; [|exact H].
    apply rel_on; [exact H|]. intros s q Hs. apply Hm; assumption.
  Qed.
  Lemma same_iff s (q u : @pset T) : same s q -> (forall y, q y <-> u y) -> same s u.
  Proof using Type. intros [H1 H2] H. split; [exact H1|]. intros y. rewrite H2. apply H. Qed.
  Definition bits_ok' (ca : scall T) : Prop := match ca with Do o => bits_ok E o | _ => True end.

  Lemma rel_after p P ca : rel p P -> bits_ok' ca -> rel (snd (call E p ca)) (after (to_d E) P ca).
  Proof.
    intros H Hb. destruct ca as [o| | | | | | | |w n| | |]; try exact H; [|destruct w; exact H]. cbn [call snd after bits_ok'] in *.
    destruct o; cbn [sstep].
    - apply rel_snoc; [exact H|]. split; [apply ok_new|]. intros y. split; [discriminate|contradiction].
    - destruct panics; [rewrite (from_iter_panics HE); exact H|]. destruct (from_iter_ok HE xs) as [s [-> [H1 H2]]]. apply rel_snoc; [exact H|]. split; assumption.
    - apply rel_snoc; [exact H|]. split; [exact Hb|]. intros y. unfold set_from_bits. apply has_In.
    - pose proof (rel_nth r H) as Hr. destruct (nth_error p r) as [s|], (nth_error P r) as [q|]; try contradiction; [|exact H]. apply rel_snoc; assumption.
    - apply rel_on; [exact H|]. intros s q [Hs Hq]. destruct (insert_ok HE x Hs) as [s' [-> [H1 H2]]]. split; [exact H1|]. intros y. cbn [snd]. rewrite H2, Hq. reflexivity.
    - apply rel_on; [exact H|]. intros s q [Hs Hq]. destruct (remove_ok HE x Hs) as [s' [-> [H1 H2]]]. split; [exact H1|]. intros y. cbn [snd]. rewrite H2, Hq. reflexivity.
    - apply rel_on; [exact H|]. intros s q _. split; [apply ok_new|]. intros y. split; [discriminate|contradiction].
    - unfold on. destruct (nth_error p r) as [s|] eqn:Hr; [|exact H]. cbn [set_shrink ret snd].
      assert (G : forall (p : pool) r s, nth_error p r = Some s -> put p r s = p).
      { clear. induction p as [|t p IH]; intros [|r] s Hr; cbn in *; try discriminate; [congruence|]. rewrite IH; auto. }
      unfold set_shrink, ret; cbn [snd]. rewrite (G _ _ _ Hr). exact H.
    - apply rel_on; [exact H|]. intros s q [Hs Hq]. destruct (extend_ok HE xs panics Hs) as [s' [-> [H1 H2]]]. split; [exact H1|]. intros y. cbn [snd]. rewrite H2, Hq. reflexivity.
    - apply rel_on2; [exact H|]. intros s t q u [Hs Hq] [Ht Hu]. destruct (union_ok Hs Ht) as [H1 H2]. split; [exact H1|]. intros y. cbn [snd set_union_with]. rewrite H2, Hq, Hu. reflexivity.
    - apply rel_on2; [exact H|]. intros s t q u [Hs Hq] [Ht Hu]. destruct (inter_ok Hs Ht) as [H1 H2]. split; [exact H1|]. intros y. cbn [snd set_intersect_with]. rewrite H2, Hq, Hu. reflexivity.
    - apply rel_on2; [exact H|]. intros s t q u [Hs Hq] [Ht Hu]. destruct (diff_ok Hs Ht) as [H1 H2]. split; [exact H1|]. intros y. cbn [snd set_difference_with]. rewrite H2, Hq, Hu. reflexivity.
    - apply rel_on2; [exact H|]. intros s t q u [Hs Hq] [Ht Hu]. destruct (symdiff_ok Hs Ht) as [H1 H2]. split; [exact H1|]. intros y. cbn [snd set_symmetric_difference_with]. rewrite H2, Hq, Hu. reflexivity.
  Qed.

  Lemma of1_ok p P r f (Q : answer T -> (@pset T) -> Prop) : rel p P -> (forall s q, same s q -> Q (f s) q) ->
    of1 P r (ask1 p r f) (Q (ask1 p r f)).
  Proof using Type.
    intros H Hf. unfold of1, ask1. pose proof (rel_nth r H) as Hr. destruct (nth_error p r) as [s|], (nth_error P r) as [q|]; try contradiction; [|reflexivity].
    exact (Hf s q Hr).
  Qed.
  Lemma of2_ok p P r r2 f (Q : answer T -> (@pset T) -> (@pset T) -> Prop) : rel p P -> (forall s t q u, same s q -> same t u -> Q (f s t) q u) ->
    of2 P r r2 (ask2 p r r2 f) (Q (ask2 p r r2 f)).
  Proof using Type.
    intros H Hf. unfold of2, of1, ask2, ask1. pose proof (rel_nth r H) as Hr. pose proof (rel_nth r2 H) as Hr2.
    destruct (nth_error p r) as [s|], (nth_error P r) as [q|]; try contradiction; [|reflexivity].
    destruct (nth_error p r2) as [t|], (nth_error P r2) as [u|]; try contradiction; [|reflexivity]. apply Hf; assumption.
  Qed.
  Lemma truth_of b Q : (b = true <-> Q) -> truth (T := T) (ABool b) Q.
  Proof using Type. intros H. exists b. auto. Qed.
  Lemma lists_ok s (q : @pset T) n : same s q -> lists (to_d E) (take E n s) n q.
  Proof.
    intros [Hs Hq]. destruct (listing Hs) as [l Hl]. destruct (listing_facts HE Hs Hl) as [_ [H2 [H3 _]]]. exists l.
    split; [exact H2|]. split; [intros y; rewrite H3; apply Hq|]. unfold take. rewrite Hl, (wrap_run_ok HE n l). reflexivity.
  Qed.
  Lemma numbers_ok s (q : @pset T) : same s q -> numbers (to_d E) (ANums s) q.
  Proof.
    intros [Hs Hq]. destruct (listing Hs) as [l Hl]. destruct (listing_facts HE Hs Hl) as [_ [H2 [H3 _]]]. exists l.
    split; [exact H2|]. split; [intros y; rewrite H3; apply Hq|]. rewrite Hl. reflexivity.
  Qed.
  Lemma before_ok s t (q u : @pset T) : same s q -> same t u -> (set_cmp s t = Lt <-> before (to_d E) q u).
  Proof.
    intros [[S1 S2] Hq] [[T1 T2] Hu]. unfold set_cmp. rewrite (bs_cmp_Lt S1 T1). unfold before. split.
    - intros [d [Ha Hb]]. assert (exists x, to_d E x = d) as [x <-] by (destruct Hb as [[_ [H _]]|[H _]]; auto). exists x.
      rewrite <- !Hq, <- !Hu, !has_In. split; [intros y Hy; rewrite <- Hq, <- Hu, !has_In; auto|]. destruct Hb as [[B1 [B2 B3]]|[B1 [B2 [e [B3 B4]]]]].
      + left. split; [exact B1|]. split; [exact B2|]. intros y Hy. apply Hq, has_In in Hy. auto.
      + right. split; [exact B1|]. split; [exact B2|]. destruct (T2 e B3) as [z <-]. exists z. rewrite <- Hu, has_In. auto.
    - intros [x [Ha Hb]]. exists (to_d E x). rewrite <- !Hq, <- !Hu, !has_In in Hb. split.
      + intros d Hd. split; intros Hi; [destruct (S2 d Hi) as [y <-]|destruct (T2 d Hi) as [y <-]]; specialize (Ha y Hd); rewrite <- Hq, <- Hu, !has_In in Ha; tauto.
      + destruct Hb as [[B1 [B2 B3]]|[B1 [B2 [y [B3 B4]]]]].
        * left. split; [exact B1|]. split; [exact B2|]. intros d Hd. destruct (S2 d Hd) as [y <-]. apply B3. apply Hq, has_In. exact Hd.
        * right. split; [exact B1|]. split; [exact B2|]. exists (to_d E y). split; [apply has_In, Hu; exact B3|exact B4].
  Qed.
  Lemma tells_ok p P ca : rel p P -> bits_ok' ca -> tells (to_d E) P ca (fst (call E p ca)).
  Proof.
    intros H Hb. destruct ca as [o|r x|r|r|r r2|r r2|r r2|r r2|w n|r r2|r|r]; cbn [call fst tells].
    - destruct o; cbn [do_answer]; try reflexivity.
      + destruct panics; [rewrite (from_iter_panics HE); reflexivity|]. destruct (from_iter_ok HE xs) as [s [-> _]]. reflexivity.
      + refine (@of1_ok _ _ _ _ (fun a _ => a = AUnit) H _). reflexivity.
      + refine (@of1_ok _ _ _ _ (fun a s => truth a (~ s x)) H _). intros s q [Hs Hq]. destruct (insert_ok HE x Hs) as [s' [-> _]]. apply truth_of.
        rewrite <- Hq. rewrite negb_true_iff. split; congruence || (destruct (set_contains E s x); congruence).
      + refine (@of1_ok _ _ _ _ (fun a s => truth a (s x)) H _). intros s q [Hs Hq]. destruct (remove_ok HE x Hs) as [s' [-> _]]. apply truth_of. apply Hq.
      + refine (@of1_ok _ _ _ _ (fun a _ => a = AUnit) H _). reflexivity.
      + refine (@of1_ok _ _ _ _ (fun a _ => a = AUnit) H _). reflexivity.
      + refine (@of1_ok _ _ _ _ (fun a _ => a = if panics then APanic else AUnit) H _). intros s q [Hs Hq].
        destruct (extend_ok HE xs panics Hs) as [s' [-> _]]. destruct panics; reflexivity.
      + refine (@of2_ok _ _ _ _ _ (fun a _ _ => a = AUnit) H _). reflexivity.
      + refine (@of2_ok _ _ _ _ _ (fun a _ _ => a = AUnit) H _). reflexivity.
      + refine (@of2_ok _ _ _ _ _ (fun a _ _ => a = AUnit) H _). reflexivity.
      + refine (@of2_ok _ _ _ _ _ (fun a _ _ => a = AUnit) H _). reflexivity.
    - refine (@of1_ok _ _ _ _ (fun a s => truth a (s x)) H _). intros s q [Hs Hq]. apply truth_of, Hq.
    - refine (@of1_ok _ _ _ _ (fun a s => exists l, NoDup l /\ (forall y, In y l <-> s y) /\ a = ANum (lenN l)) H _). intros s q [Hs Hq].
      destruct (listing Hs) as [l Hl]. destruct (listing_facts HE Hs Hl) as [H1 [_ [H3 H4]]]. exists l. split; [exact H1|].
      split; [intros y; rewrite H3; apply Hq|congruence].
    - refine (@of1_ok _ _ _ _ (fun a s => truth a (forall y, ~ s y)) H _). intros s q [Hs Hq]. apply truth_of. rewrite (empty_ok Hs).
      split; intros G y; [rewrite <- Hq|rewrite Hq]; apply G.
    - refine (@of2_ok _ _ _ _ _ (fun a s t => truth a (forall y, s y <-> t y)) H _). intros s t q u [Hs Hq] [Ht Hu]. apply truth_of. rewrite (eq_ok Hs Ht).
      split; intros G y; [rewrite <- Hq, <- Hu|rewrite Hq, Hu]; apply G.
    - refine (@of2_ok _ _ _ _ _ (fun a s t => truth a (forall y, s y -> t y)) H _). intros s t q u [Hs Hq] [Ht Hu]. apply truth_of. rewrite (subset_ok t Hs).
      split; intros G y; [rewrite <- Hq, <- Hu|rewrite Hq, Hu]; apply G.
    - refine (@of2_ok _ _ _ _ _ (fun a s t => truth a (forall y, t y -> s y)) H _). intros s t q u [Hs Hq] [Ht Hu]. apply truth_of.
      change (set_is_superset s t) with (set_is_subset t s). rewrite (subset_ok s Ht).
      split; intros G y; [rewrite <- Hq, <- Hu|rewrite Hq, Hu]; apply G.
    - refine (@of2_ok _ _ _ _ _ (fun a s t => truth a (forall y, ~ (s y /\ t y))) H _). intros s t q u [Hs Hq] [Ht Hu]. apply truth_of. rewrite (disjoint_ok t Hs).
      split; intros G y; [rewrite <- Hq, <- Hu|rewrite Hq, Hu]; apply G.
    - destruct w as [r|r r2|r r2|r r2|r r2]; cbn [fst].
      + refine (@of1_ok _ _ _ _ (fun a => lists (to_d E) a n) H _). intros s q Hs. apply lists_ok, Hs.
      + refine (@of2_ok _ _ _ _ _ (fun a s t => lists (to_d E) a n (fun y => s y \/ t y)) H _). intros s t q u [Hs Hq] [Ht Hu]. apply lists_ok.
        destruct (union_ok Hs Ht) as [H1 H2]. split; [exact H1|]. intros y. rewrite H2, Hq, Hu. reflexivity.
      + refine (@of2_ok _ _ _ _ _ (fun a s t => lists (to_d E) a n (fun y => s y /\ t y)) H _). intros s t q u [Hs Hq] [Ht Hu]. apply lists_ok.
        destruct (inter_ok Hs Ht) as [H1 H2]. split; [exact H1|]. intros y. rewrite H2, Hq, Hu. reflexivity.
      + refine (@of2_ok _ _ _ _ _ (fun a s t => lists (to_d E) a n (fun y => s y /\ ~ t y)) H _). intros s t q u [Hs Hq] [Ht Hu]. apply lists_ok.
        destruct (diff_ok Hs Ht) as [H1 H2]. split; [exact H1|]. intros y. rewrite H2, Hq, Hu. reflexivity.
      + refine (@of2_ok _ _ _ _ _ (fun a s t => lists (to_d E) a n (fun y => (s y /\ ~ t y) \/ (t y /\ ~ s y))) H _). intros s t q u [Hs Hq] [Ht Hu]. apply lists_ok.
        destruct (symdiff_ok Hs Ht) as [H1 H2]. split; [exact H1|]. intros y. rewrite H2, Hq, Hu. reflexivity.
    - refine (@of2_ok _ _ _ _ _ (fun a s t => exists o, a = AOrder o /\ (o = Lt <-> before (to_d E) s t) /\ (o = Gt <-> before (to_d E) t s) /\ (o = Eq <-> forall y, s y <-> t y)) H _).
      intros s t q u Hs Ht. exists (set_cmp s t). split; [reflexivity|]. split; [exact (before_ok Hs Ht)|]. split.
      + rewrite <- (before_ok Ht Hs). unfold set_cmp. rewrite (bs_cmp_sym t s). destruct (bs_cmp t s); cbn; split; congruence.
      + unfold set_cmp. rewrite bs_cmp_Eq. destruct Hs as [Hs Hq]. destruct Ht as [Ht Hu].
        split; [intros -> y; rewrite <- Hq, <- Hu; reflexivity|]. intros G. apply (has_ext Hs Ht). intros y. rewrite Hq, Hu. apply G.
    - refine (@of1_ok _ _ _ _ (numbers (to_d E)) H _). intros s q Hs. apply numbers_ok, Hs.
    - refine (@of1_ok _ _ _ _ (numbers (to_d E)) H _). intros s q Hs. apply numbers_ok, Hs.
  Qed.

  Lemma own_bits_ok k : own_bits (to_d E) k -> forall seen ca, k seen = Some ca -> bits_ok' ca.
  Proof using Type.
    intros Hk seen [[]| | | | | | | | | | | ] Hc; cbn; auto. destruct (Hk _ _ Hc) as [H1 H2]. split; assumption.
  Qed.
  Lemma play_ok n k : own_bits (to_d E) k -> forall seen p P, rel p P -> sees (to_d E) k n seen P (set_play E n k seen p).
  Proof.
    intros Hk. induction n as [|n IH]; intros seen p P H; cbn [set_play]; [constructor|].
    destruct (k seen) as [ca|] eqn:Hca; [|constructor; exact Hca].
    pose proof (tells_ok H (own_bits_ok Hk Hca)) as H1. pose proof (rel_after H (own_bits_ok Hk Hca)) as H2.
    destruct (call E p ca) as [a p']. cbn [fst snd] in *. econstructor; [exact Hca|exact H1|]. apply IH. exact H2.
  Qed.
End Client.
