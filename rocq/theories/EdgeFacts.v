(** EdgeFacts.v -- shrink_to_fit with no assumption on the allocator; iterating sets with foreign numbers. *)
From Verif Require Import ProgFacts SetFacts EnumSet.
From Coq Require Import ZifyBool ZifyNat ZifyN.
Open Scope N_scope.
Set Implicit Arguments.
Unset Strict Implicit.

Section Shrink.
  Context {T : Type} {c : cfg} {E : enumlike T}.
  Local Notation B := (BITS E).
  Local Notation P := (EPB c E).
  Hypothesis Hc : cfg_ok c.
  Hypothesis Hcomp : compiles c E = true.

  Lemma raw_depends v w i : nthN (data (storage v)) (i / P) = nthN (data (storage w)) (i / P) ->
    get_raw_unchecked c E i v = get_raw_unchecked c E i w.
  Proof. intros H. unfold get_raw_unchecked, block_index, load_unchecked. rewrite H. reflexivity. Qed.
  Lemma raw_outside v i : vlen (storage v) <= i / P -> get_raw_unchecked c E i v = UB.
  Proof.
    intros H. unfold get_raw_unchecked, block_index, load_unchecked.
    destruct (nthN (data (storage v)) (i / P)) as [b|] eqn:Hb; [|reflexivity].
    apply nthN_Some_lt in Hb. unfold vlen in H. lia.
  Qed.
  Lemma shrink_any v : valid c E v -> exists v',
    shrink_to_fit c E v = (Ret tt, v') /\ len v' = len v /\ vlen (storage v') = N.min (vlen (storage v)) (blocks_for_elements c E (len v)) /\
    (forall i, i / P < vlen (storage v') -> get_raw c E i v' = get_raw c E i v) /\
    (forall i, i < len v -> vlen (storage v') <= i / P -> get_raw c E i v' = UB) /\
    (len v <= P * vlen (storage v') -> valid c E v').
  Proof.
    intros [V1 [V2 [V3 [V4 V5]]]]. set (k := blocks_for_elements c E (len v)).
    exists (mkEv (mkRvec (firstn (N.to_nat k) (data (storage v))) (shrink c (vcap (storage v)) (lenN (firstn (N.to_nat k) (data (storage v)))))) (num v)).
    assert (HL : lenN (firstn (N.to_nat k) (data (storage v))) = N.min (vlen (storage v)) k) by (rewrite lenN_firstn; unfold vlen; lia).
    split; [reflexivity|]. split; [reflexivity|]. cbn [storage data]. unfold vlen at 1 3 4 5. cbn [data]. rewrite HL.
    split; [reflexivity|]. split; [|split].
    - intros i Hi. unfold get_raw, len; cbn [num]. destruct (num v <=? i); [reflexivity|]. f_equal. apply raw_depends. cbn [storage data].
      apply nthN_firstn. lia.
    - intros i Hi Hk. unfold get_raw, len in *; cbn [num]. rewrite (proj2 (N.leb_gt _ _)) by exact Hi.
      rewrite raw_outside; [reflexivity|]. unfold vlen; cbn [storage data]. rewrite HL. exact Hk.
    - intros Hcov. split; [|split; [|split; [|split; [|exact V5]]]].
      + cbn [storage data]. intros b Hb. apply V1. rewrite <- (firstn_skipn (N.to_nat k)). apply in_or_app. left. exact Hb.
      + unfold vlen, len in *; cbn [storage data num]. rewrite HL. exact Hcov.
      + pose proof (@ok_shrink _ Hc (vcap (storage v)) (N.min (vlen (storage v)) k) ltac:(lia)) as S. unfold vlen in *; cbn [storage data vcap]. rewrite ?HL. lia.
      + pose proof (@ok_shrink _ Hc (vcap (storage v)) (N.min (vlen (storage v)) k) ltac:(lia)) as S. unfold vlen in *; cbn [storage data vcap]. rewrite ?HL. lia.
  Qed.
  Lemma covers_iff n : n <= P * blocks_for_elements c E n <-> n <= P * (usize_max c / P).
  Proof.
    pose proof (EPB_pos Hc Hcomp) as HP. unfold blocks_for_elements.
    destruct (N.le_gt_cases (n + (P - 1)) (usize_max c)) as [H|H].
    - rewrite N.min_l by exact H. pose proof (N.div_mod (n + (P - 1)) P ltac:(lia)). pose proof (N.mod_lt (n + (P - 1)) P ltac:(lia)).
      assert ((n + (P - 1)) / P <= usize_max c / P) by (apply N.div_le_mono; lia). nia.
    - rewrite N.min_r by lia. reflexivity.
  Qed.
  Lemma blocks_cap n : P * blocks_for_elements c E n < n -> blocks_for_elements c E n = usize_max c / P.
  Proof.
    intros H. pose proof (EPB_pos Hc Hcomp) as HP. unfold blocks_for_elements in *.
    destruct (N.le_gt_cases (n + (P - 1)) (usize_max c)) as [H1|H1]; [|rewrite N.min_r by lia; reflexivity].
    rewrite N.min_l in H by exact H1. pose proof (N.div_mod (n + (P - 1)) P ltac:(lia)). pose proof (N.mod_lt (n + (P - 1)) P ltac:(lia)). lia.
  Qed.
  Lemma holds_len v l : holds c E v l -> len v = lenN l.
  Proof.
    intros [_ H].
    assert (G : forall i, i < len v <-> i < lenN l).
    { intros i. specialize (H i). unfold get_raw in H. destruct (N.leb_spec (len v) i) as [H1|H1].
      - destruct (l_get l i) as [x|] eqn:Hx; [discriminate|]. split; [lia|]. intros H2. destruct (nthN_lt_Some H2) as [y Hy]. rewrite get_D in Hy. congruence.
      - split; [intros _|lia]. destruct (l_get l i) as [x|] eqn:Hx; [rewrite <- get_D in Hx; exact (nthN_Some_lt Hx)|].
        destruct (get_raw_unchecked c E i v); discriminate. }
    pose proof (G (len v)). pose proof (G (lenN l)). lia.
  Qed.
  Lemma shrink_limit v l : holds c E v l -> exists v', shrink_to_fit c E v = (Ret tt, v') /\ len v' = lenN l /\
    (holds c E v' l <-> lenN l <= P * (usize_max c / P)) /\
    (forall i, i < lenN l -> get_raw c E i v' = if i <? P * (usize_max c / P) then Ret (option_map (to_d E) (l_get l i)) else UB).
  Proof.
    intros H. pose proof (holds_len H) as HL. destruct H as [Hv Hg]. pose proof (EPB_pos Hc Hcomp) as HP.
    destruct (shrink_any Hv) as [v' [E1 [E2 [E3 [E4 [E5 E6]]]]]]. exists v'. split; [exact E1|]. split; [congruence|]. rewrite HL in *.
    pose proof (proj1 (proj2 Hv)) as Hcov. rewrite HL in Hcov.
    pose proof (covers_iff (lenN l)) as CI. pose proof (@blocks_cap (lenN l)) as BC. revert CI BC.
    generalize dependent (usize_max c / P). generalize dependent (blocks_for_elements c E (lenN l)). intros bl Hbl mx CI BC.
    assert (Hget : forall i, i < lenN l -> get_raw c E i v' = if i <? P * mx then Ret (option_map (to_d E) (l_get l i)) else UB).
    { intros i Hi. pose proof (N.div_mod i P ltac:(lia)) as Dm. pose proof (N.mod_lt i P ltac:(lia)) as Dl.
      destruct (N.lt_ge_cases (i / P) (vlen (storage v'))) as [Hk|Hk].
      - rewrite (E4 i Hk), Hg. destruct (N.ltb_spec i (P * mx)) as [G|G]; [reflexivity|].
        exfalso. destruct (N.le_gt_cases (lenN l) (P * bl)) as [C|C]; [apply CI in C; lia|].
        specialize (BC C). subst mx. assert (i / P + 1 <= bl) by lia. assert (P * (i / P + 1) <= P * bl) by (apply N.mul_le_mono_l; assumption). lia.
      - rewrite (E5 i Hi Hk). destruct (N.ltb_spec i (P * mx)) as [G|G]; [|reflexivity].
        exfalso. assert (P * vlen (storage v') <= P * (i / P)) by (apply N.mul_le_mono_l; exact Hk).
        rewrite Hbl in H. destruct (N.le_gt_cases (lenN l) (P * bl)) as [C|C].
        + destruct (N.min_spec (vlen (storage v)) bl) as [[_ M]|[_ M]]; rewrite M in H; lia.
        + specialize (BC C). subst mx. destruct (N.min_spec (vlen (storage v)) bl) as [[_ M]|[_ M]]; rewrite M in H; lia. }
    split; [|exact Hget]. split.
    - intros H'. destruct (N.le_gt_cases (lenN l) (P * mx)) as [C|C]; [exact C|exfalso].
      specialize (Hget (lenN l - 1) ltac:(lia)). rewrite (proj2 H') in Hget. rewrite (proj2 (N.ltb_ge _ _)) in Hget by lia. discriminate.
    - intros C. split; [apply E6; apply CI in C; rewrite Hbl; destruct (N.min_spec (vlen (storage v)) bl) as [[_ M]|[_ M]]; rewrite M; lia|]. intros i. destruct (N.lt_ge_cases i (lenN l)) as [Hi|Hi].
      + rewrite (Hget i Hi). rewrite (proj2 (N.ltb_lt _ _)) by lia. reflexivity.
      + unfold get_raw. rewrite E2, (proj2 (N.leb_le _ _)) by lia. unfold l_get. rewrite (proj2 (nth_error_None _ _)) by (unfold lenN in *; lia). reflexivity.
  Qed.
End Shrink.

Section Foreign.
  Context {T : Type} (E : enumlike T).
  Lemma wrap_run_prefix (s1 : list N) : forall s2 l, map (from_discr E) s1 = map (@Ret T) l ->
    wrap_run E (length s1) (s1 ++ s2) = (Ret (map Some l), s2).
  Proof.
    induction s1 as [|d s1 IH]; intros s2 [|x l] H; try discriminate; [reflexivity|]. cbn in H. injection H as H1 H2.
    cbn [wrap_run length app]. unfold bind at 1. cbn [wrap_next]. rewrite H1. unfold bind at 1. rewrite (IH s2 l H2). reflexivity.
  Qed.
  Lemma wrap_run_fail (s1 : list N) d s2 : (forall e, In e s1 -> exists x, from_discr E e = Ret x) -> (forall x, from_discr E d <> Ret x) ->
    exists k, wrap_run E (S (length s1)) (s1 ++ d :: s2) = (Panic k, s2).
  Proof.
    revert s2. induction s1 as [|e s1 IH]; intros s2 H Hd.
    - cbn [wrap_run length app]. unfold bind. cbn [wrap_next]. unfold from_discr in *. destruct (from_d E d) as [x|]; [destruct (Hd x); reflexivity|]. eexists. reflexivity.
    - destruct (H e (or_introl eq_refl)) as [x Hx]. destruct (IH s2 (fun e' He => H e' (or_intror He)) Hd) as [k Hk]. exists k.
      change (wrap_run E (S (length (e :: s1)))) with (bind (wrap_next E) (fun o => bind (wrap_run E (S (length s1))) (fun os => ret (o :: os)))).
      unfold bind at 1. cbn [wrap_next app]. rewrite Hx. unfold bind at 1. rewrite Hk. reflexivity.
  Qed.
  Lemma accepted_all (s : list N) : (forall d, In d s -> exists x, from_discr E d = Ret x) <-> exists l, map (from_discr E) s = map (@Ret T) l.
  Proof.
    induction s as [|d s IH].
    - split; [intros _; exists []; reflexivity|intros _ d []].
    - split.
      + intros H. destruct (H d (or_introl eq_refl)) as [x Hx]. destruct (proj1 IH) as [l Hl]; [intros e He; apply H; right; exact He|].
        exists (x :: l). cbn. congruence.
      + intros [[|x l] Hl]; [discriminate|]. cbn in Hl. injection Hl as H1 H2. intros e [<-|He]; [eauto|].
        apply (proj2 IH (ex_intro _ _ H2) e He).
  Qed.
  Lemma split_first (s : list N) : (forall d, In d s -> exists x, from_discr E d = Ret x) \/
    exists s1 d s2, s = s1 ++ d :: s2 /\ (forall e, In e s1 -> exists x, from_discr E e = Ret x) /\ forall x, from_discr E d <> Ret x.
  Proof.
    induction s as [|d s IH]; [left; intros d []|]. destruct (from_discr E d) as [x| | |] eqn:Hd.
    2-4: right; exists [], d, s; split; [reflexivity|]; split; [intros e []|congruence].
    destruct IH as [IH|[s1 [e [s2 [-> [H1 H2]]]]]].
    - left. intros e [<-|He]; eauto.
    - right. exists (d :: s1), e, s2. split; [reflexivity|]. split; [|exact H2]. intros e' [<-|He]; eauto.
  Qed.
  Lemma wrap_done (s : list N) l : map (from_discr E) s = map (@Ret T) l -> fst (wrap_run E (length s + 1) s) = Ret (map Some l ++ [None]).
  Proof.
    revert l. induction s as [|d s IH]; intros [|x l] H; try discriminate; [reflexivity|]. cbn in H. injection H as H1 H2.
    cbn [length Nat.add wrap_run]. unfold bind at 1. cbn [wrap_next]. rewrite H1. unfold bind at 1. specialize (IH l H2).
    destruct (wrap_run E (length s + 1) s) as [o s']. cbn in IH. subst o. reflexivity.
  Qed.
  Lemma iterates_iff (s : list N) : (exists l, fst (wrap_run E (length s + 1) s) = Ret l) <-> forall d, In d s -> exists x, from_discr E d = Ret x.
  Proof.
    split.
    - intros [l Hl]. destruct (split_first s) as [H|[s1 [d [s2 [-> [H1 H2]]]]]]; [exact H|exfalso].
      destruct (wrap_run_fail s2 H1 H2) as [k Hk].
      assert (G : forall n m (i : list N) k i', wrap_run E n i = (Panic k, i') -> exists i'', wrap_run E (n + m) i = (Panic k, i'')).
      { clear. induction n as [|n IH]; intros m i k i' H; [discriminate|]. cbn [wrap_run Nat.add] in *. unfold bind in H |- *.
        destruct (wrap_next E i) as [[o|q| |] j]; try discriminate; [|injection H as -> _; eauto].
        destruct (wrap_run E n j) as [[r|q| |] j'] eqn:Hr; try discriminate. injection H as -> ->.
        destruct (IH m j k i' Hr) as [i'' ->]. eauto. }
      rewrite app_length in Hl. cbn [length] in Hl. destruct (G _ (length s2 + 1)%nat _ _ _ Hk) as [i'' Hi].
      replace (S (length s1) + (length s2 + 1))%nat with (length s1 + S (length s2) + 1)%nat in Hi by lia. rewrite Hi in Hl. discriminate.
    - intros H. apply accepted_all in H. destruct H as [l Hl]. eexists. apply (wrap_done Hl).
  Qed.
End Foreign.
