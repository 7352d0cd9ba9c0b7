(** MemFacts3.v -- calls that are given the memory they ask for return. *)
From Verif Require Export MemFacts2.
From Coq Require Import ZifyBool ZifyNat ZifyN.
Open Scope N_scope.
Set Implicit Arguments.
Unset Strict Implicit.

Lemma fed_result0 S A (Q0 I : S -> Prop) (m : M S A) s Q (F : panic -> S -> Prop) : Q0 s -> fits Q0 I m s -> result (m s) Q F ->
  (forall k s', F k s' -> no_room k) -> exists a s', m s = (Ret a, s') /\ Q a s'.
Proof.
  intros HQ H0 R HF. destruct (H0 HQ) as [H _]. unfold result in R. destruct (m s) as [[a|k| |] s']; try contradiction.
  - eauto.
  - apply HF in R. destruct R; subst k; contradiction.
Qed.
Definition fed_result A I m s Q F := @fed_result0 ev A (capok (fun _ => True)) I m s Q F Logic.I.
Definition fed_result2 A I m s Q F := @fed_result0 (ev * ev) A (fun s => capok (fun _ => True) (fst s) /\ capok (fun _ => True) (snd s)) I m s Q F (conj Logic.I Logic.I).
Lemma made_result n (o : outcome ev) Q (F : panic -> Prop) : makes n (fun _ => True) o -> builds o Q F -> (forall k, F k -> no_room k) -> exists v, o = Ret v /\ Q v.
Proof.
  intros [H _] R HF. unfold builds in R. destruct o as [v|k| |]; try contradiction.
  - eauto.
  - apply HF in R. destruct R; subst k; contradiction.
Qed.

Lemma n_alloc c n : cfg_ok c -> grants c n -> n <= alloc_max c.
Proof.
  intros Hc Hg. destruct (N.eq_dec n 0) as [->|Hn]; [lia|]. destruct (Hg 0 n) as [H _]; [lia|lia|].
  pose proof (ok_grow Hc (cap := 0) (need := n)). lia.
Qed.
Lemma roomy_provides T (c : cfg) (E : enumlike T) n : cfg_ok c -> admits c E -> roomy c -> grants c n -> provides c E n.
Proof.
  intros Hc Had Hr Hg. split; [exact Hg|]. pose proof (n_alloc Hc Hg) as Ha. pose proof (P_le_W Hc Had) as [_ HP].
  pose proof (usize_pow Hc (proj1 Had)). unfold roomy in Hr.
  assert (EPB c E * n <= W c * alloc_max c) by (apply N.mul_le_mono; lia). lia.
Qed.

Section Calls.
  Context {T : Type} (c : cfg) (E : enumlike T).
  Hypothesis Hs : setting c E.
  Let Hc := s_ok Hs. Let Had := proj1 (proj2 (proj2 Hs)).
  Local Notation P := (EPB c E).

  Lemma usize_of n k : provides c E n -> k / P + 1 <= n -> k < usize_max c.
  Proof.
    intros Hg H. apply (n_usize Hc (proj2 Hg) Had (grants_serves (proj1 Hg))). apply (div_n n Hc Had) in H. lia.
  Qed.
  Lemma countable_of n k : provides c E n -> k / P + 1 <= n -> countable c E k.
  Proof.
    intros Hg H. apply (div_n n Hc Had) in H. apply (fixable_small Hc (s_comp Hs)). destruct Hg as [_ Hg]. lia.
  Qed.
  Lemma fill_usize n l k : provides c E n -> fill_demand c E l k <= n -> l + k < usize_max c.
  Proof.
    intros Hg H. apply usize_of with n; [exact Hg|]. unfold fill_demand in H. destruct (k <=? 4 * P); [exact H|]. pose proof (@div_add_le l k P (proj1 (P_le_W Hc Had))).
    pose proof (@sq_ge (k / P)). lia.
  Qed.
  Lemma reservable_of n l k : provides c E n -> (l + k) / P + 1 <= n -> reservable c E l k.
  Proof. intros Hg H. right. exact (usize_of Hg H). Qed.

  Lemma push_fed v l x : holds c E v l -> provides c E (lenN l / P + 1) -> exists v', push c E x v = (Ret tt, v') /\ holds c E v' (l ++ [x]).
  Proof.
    intros H Hg. destruct (@fed_result _ _ _ _ _ _ (@fits_push T c E _ _ Hc (proj2 Hg) Had (grants_serves (proj1 Hg)) x v ltac:(rewrite (holds_len Hs H); apply (div_n _ Hc Had); lia))
      (push_ok Hs x H)) as [[] [v' [G1 G2]]]; [intros k s' G; exact (grow_no_room Hs G)|]. eauto.
  Qed.
  Lemma insert_fed v l i x : BITS E < W c -> holds c E v l -> i <= lenN l -> provides c E (lenN l / P + 1) ->
    exists v', insert c E i x v = (Ret tt, v') /\ holds c E v' (l_insert l i x).
  Proof.
    intros Hw H Hi Hg. destruct (@fed_result _ _ _ _ _ _ (@fits_insert T c E _ _ Hc (proj2 Hg) Had (grants_serves (proj1 Hg)) i x v ltac:(rewrite (holds_len Hs H); apply (div_n _ Hc Had); lia))
      (insert_ok Hs x (countable_of (k := i) Hg ltac:(apply N.add_le_mono_r, N.div_le_mono; [pose proof (proj1 (P_le_W Hc Had)); lia|exact Hi])) Hw H Hi)) as [[] [v' [G1 G2]]]; [intros k s' G; exact (grow_no_room Hs G)|]. eauto.
  Qed.
  Lemma extend_fed v l it : holds c E v l -> lower it <= lenN (items it) -> ends_in_panic it = false ->
    provides c E ((lenN l + lenN (items it)) / P + 1) -> exists v', extend c E it v = (Ret tt, v') /\ holds c E v' (l ++ items it).
  Proof.
    intros H Hl Hp Hg. pose proof (holds_len Hs H) as Hn.
    assert (Hle : lenN l + lower it < usize_max c).
    { pose proof (usize_of (k := lenN l + lenN (items it)) Hg ltac:(lia)). lia. }
    destruct (@fed_result _ _ _ _ _ _ (@fits_extend T c E _ _ Hc (proj2 Hg) Had (grants_serves (proj1 Hg)) it v ltac:(rewrite Hn, N.max_r by exact Hl; apply (div_n _ Hc Had); lia))
      (extend_ok Hs H Hl ltac:(lia) (or_intror Hle))) as [[] [v' [G1 [_ G2]]]]; [|eauto].
    intros k s' [[G _]|[_ [G _]]]; [exact G|congruence].
  Qed.
  Lemma resize_fed v l k x : holds c E v l -> provides c E (fill_demand c E (lenN l) (k - lenN l)) ->
    exists v', resize c E k x v = (Ret tt, v') /\ holds c E v' (if lenN l <? k then l ++ repeat x (N.to_nat (k - lenN l)) else firstn (N.to_nat k) l).
  Proof.
    intros H Hg. pose proof (holds_len Hs H) as Hn. pose proof (fill_usize Hg (N.le_refl _)) as Hu.
    destruct (N.le_gt_cases k (usize_max c)) as [Hk|Hk]; [|lia].
    destruct (@fed_result _ _ _ _ _ _ (@fits_resize_elems T c E _ _ Hc (proj2 Hg) Had (grants_serves (proj1 Hg)) k x v ltac:(rewrite Hn; destruct (k <=? lenN l); [apply N.le_0_l|apply N.le_refl]))
      (resize_ok Hs x H Hk)) as [[] [v' [G1 G2]]]; [intros q s' [G _]; exact G|]. eauto.
  Qed.
  Lemma reserve_fed v l k : holds c E v l -> provides c E ((lenN l + k) / P + 1) ->
    exists v', reserve c E k v = (Ret tt, v') /\ holds c E v' l /\ lenN l + k <= capacity c E v'.
  Proof.
    intros H Hg. pose proof (holds_len Hs H) as Hn. pose proof (usize_of (k := lenN l + k) Hg (N.le_refl _)) as Hu.
    pose proof (reserve_all Hs (v := v) (l := l) (k := k) H ltac:(lia)) as R.
    destruct (@fits_reserve T c E _ _ Hc (proj2 Hg) Had (grants_serves (proj1 Hg)) k v) as [F _]; [|exact I|]; [rewrite Hn; apply (div_n _ Hc Had); lia|].
    unfold result in R. destruct (reserve c E k v) as [[[]|q| |] v'] eqn:Eq; cbn in F; try contradiction; [eauto|]. exfalso. clear R.
    (* a panic other than for lack of memory: none *)
    pose proof (reserve_ok Hs H (or_intror Hu)) as R. rewrite Eq in R. cbn in R. destruct R as [[-> | ->] _]; contradiction.
  Qed.
  Lemma append_fed v w l m : holds c E v l -> holds c E w m -> small c = true \/ lenN l mod P <> 0 -> provides c E ((lenN l + lenN m) / P + 1) ->
    exists v' w', append c E (v, w) = (Ret tt, (v', w')) /\ holds c E v' (l ++ m) /\ holds c E w' [].
  Proof.
    intros H G Hx Hg.
    assert (Hx' : lenN l mod P <> 0 \/ (small c = true /\ (roomy c \/ countable c E (lenN m) /\ lenN l + lenN m <= usize_max c))).
    { destruct Hx as [Hx|Hx]; [right|left; exact Hx]. split; [exact Hx|right]. split.
      - apply (countable_of (n := (lenN l + lenN m) / P + 1)); [exact Hg|]. apply N.add_le_mono_r, N.div_le_mono; [pose proof (proj1 (P_le_W Hc Had)); lia|lia].
      - apply N.lt_le_incl, (usize_of (n := (lenN l + lenN m) / P + 1)); [exact Hg|apply N.le_refl]. }
    destruct (@fed_result2 _ _ _ _ _ _ (@fits_append T c E _ _ Hc (proj2 Hg) Had (grants_serves (proj1 Hg)) v w ltac:(rewrite (holds_len Hs H), (holds_len Hs G);
        destruct (_ =? _); [apply (@blocks_div T c E Hc Had)|apply N.le_refl]))
      (append_ok Hs H G Hx')) as [[] [[v' w'] [G1 [G2 G3]]]]; [intros q s' [Gq _]; exact Gq|]. eauto.
  Qed.
  Lemma clone_fed v l : holds c E v l -> grants c (vlen (storage v)) -> exists w, clone c v = Ret w /\ holds c E w l.
  Proof.
    intros H Hg. apply (@made_result (vlen (storage v)) (clone c v) _ (fun k => k = PCapacity)); [apply makes_clone; [exact (grants_serves Hg)|unfold small_st; lia]|exact (clone_ok Hs H)|].
    intros k ->. left; reflexivity.
  Qed.
  Lemma with_capacity_fed k : provides c E (k / P + 1) -> exists w, with_capacity c E k = Ret w /\ holds c E w [] /\ k <= capacity c E w.
  Proof.
    intros Hg. pose proof (usize_of (k := k) Hg (N.le_refl _)) as Hu.
    destruct (@made_result (k / P + 1) (with_capacity c E k) (fun v => holds c E v [] /\ (roomy c \/ countable c E k -> k <= capacity c E v)) (fun k => k = PCapacity)) as [w [G1 [G2 G3]]];
      [apply (makes_capacity Hc (proj2 Hg) Had (grants_serves (proj1 Hg)) (@blocks_div T c E Hc Had k))|exact (with_capacity_room Hs (N.lt_le_incl _ _ Hu))|intros q ->; left; reflexivity|].
    exists w. split; [exact G1|]. split; [exact G2|]. apply G3. right. exact (countable_of (k := k) Hg (N.le_refl _)).
  Qed.
  Lemma from_elem_fed x k : provides c E (fill_demand c E 0 k) -> exists w, from_elem c E x k = Ret w /\ holds c E w (repeat x (N.to_nat k)).
  Proof.
    intros Hg. pose proof (fill_usize Hg (N.le_refl _)) as Hu.
    apply (@made_result (fill_demand c E 0 k) (from_elem c E x k) _ no_room);
      [apply (makes_build Hc (proj2 Hg) Had (grants_serves (proj1 Hg))); apply (fits_fill Hc (proj2 Hg) Had (grants_serves (proj1 Hg))); cbn; lia|exact (from_elem_ok Hs x (n := k) ltac:(lia))|auto].
  Qed.
  Lemma from_iter_fed it : lower it <= lenN (items it) -> ends_in_panic it = false -> provides c E (lenN (items it) / P + 1) ->
    exists w, from_iter c E it = Ret w /\ holds c E w (items it).
  Proof.
    intros Hl Hp Hg. pose proof (usize_of (k := lenN (items it)) Hg (N.le_refl _)) as Hu. assert (Hu' : 0 + lower it < usize_max c) by lia.
    destruct (@made_result (lenN (items it) / P + 1) (from_iter c E it) _ _
      (makes_build Hc (proj2 Hg) Had (grants_serves (proj1 Hg)) (fits_extend Hc (proj2 Hg) Had (grants_serves (proj1 Hg)) (it := it) (v := ev_new c) ltac:(cbn; rewrite N.max_r by exact Hl; apply (div_n _ Hc Had); lia)))
      (from_iter_ok Hs Hl ltac:(lia) (or_intror Hu'))) as [w [G1 [_ G2]]]; [|eauto].
    intros k [G|[_ G]]; [exact G|congruence].
  Qed.
End Calls.
