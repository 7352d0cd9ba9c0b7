(** LocalFacts4.v -- proofs for PropLocal.v: programs, and what reading calls look at. *)
From Verif Require Export LocalFacts3.
From Verif Require Import SafeAny MemFacts ClaimFacts CapFacts.
From Coq Require Import ZifyBool ZifyNat ZifyN.
Open Scope N_scope.
Set Implicit Arguments.

Section L4.
  Context {T : Type} (c : cfg) (E : enumlike T).
  Hypothesis Hc : cfg_ok c.
  Hypothesis Hcomp : compiles c E = true.
  Hypothesis Hai : alloc_isize c.
  Local Notation P := (EPB c E).
  Let HP : 1 <= P := Ppos_any Hc Hcomp Hai.

  Lemma safe_sane p o : safe_op c E p o = true -> sane c E (map len p) o = true.
  Proof.
    destruct o; cbn [safe_op sane]; auto. intros H. unfold reg in *. replace (nth r (map len p) 0) with (len (nth r p (ev_new c))); [exact H|].
    symmetry. exact (map_nth len p (ev_new c) r).
  Qed.
  Theorem run_stays prog : forall p r v j b, Forall (valid c E) p -> safe_run c E p prog = true -> spared c E p prog r j = true ->
    nth_error p r = Some v -> block_is v j b -> exists v', nth_error (snd (m_run c E p prog)) r = Some v' /\ block_is v' j b.
  Proof.
    induction prog as [|o prog IH]; intros p r v j b Hp Hs Hu Hv Hb; cbn [m_run safe_run spared] in *; [eauto|].
    apply andb_prop in Hs. destruct Hs as [Hs Hs']. apply andb_prop in Hu. destruct Hu as [Hu Hu']. apply negb_true_iff in Hu.
    pose proof (proj1 (any_Forall_valid Hc Hcomp Hai p) Hp) as Hw.
    destruct (steps_stay Hc Hcomp Hai o Hw (safe_sane _ _ Hs) _ Hv) as (v1 & H1 & K). specialize (K j b Hu Hb).
    destruct (any_steps Hc Hcomp Hai Hp Hs) as [_ G]. destruct (m_step c E p o) as [out p1]. cbn [fst snd] in *.
    destruct out as [x| | |]; try (exists v1; split; assumption).
    - destruct (IH p1 r v1 j b (G ltac:(discriminate)) Hs' Hu' H1 K) as (v2 & H2 & K2). exists v2. split; [|exact K2]. destruct (m_run c E p1 prog). exact H2.
    - destruct (IH p1 r v1 j b (G ltac:(discriminate)) Hs' Hu' H1 K) as (v2 & H2 & K2). exists v2. split; [|exact K2]. destruct (m_run c E p1 prog). exact H2.
  Qed.

  Section Two.
    Variables (v w : ev).
    Hypothesis H : same_used c E v w.
    Lemma su_home i : i < len v -> nthN (data (storage v)) (i / P) = nthN (data (storage w)) (i / P).
    Proof. intros Hi. apply (proj2 H). pose proof (N.mul_div_le i P ltac:(lia)). lia. Qed.
    Lemma su_get_u i : i < len v -> get_raw_unchecked c E i v = get_raw_unchecked c E i w.
    Proof. intros Hi. unfold get_raw_unchecked, block_index, load_unchecked. rewrite (su_home Hi). reflexivity. Qed.
    Lemma su_get i : get c E i v = get c E i w.
    Proof.
      unfold get, get_raw. rewrite <- (proj1 H). destruct (len v <=? i) eqn:G; [reflexivity|]. rewrite (@su_get_u i) by lia. reflexivity.
    Qed.
    Lemma su_load i : i * P < len v -> load i v = load i w.
    Proof. intros Hi. unfold load. rewrite (proj2 H i Hi). reflexivity. Qed.
    Lemma su_any_loop one high xm n : forall i, (i + N.of_nat n) * P <= len v -> any_loop c n i one high xm v = any_loop c n i one high xm w.
    Proof.
      induction n as [|n IH]; intros i Hi; cbn [any_loop]; [reflexivity|]. rewrite (@su_load i) by nia. destruct (load i w) as [b| | |]; cbn [obind]; try reflexivity.
      destruct (haszero c one high (N.lxor b xm)); [reflexivity|]. apply IH. nia.
    Qed.
    Lemma su_all_loop a b n : forall i, (i + N.of_nat n) * P <= len v -> all_loop n i a b v = all_loop n i a b w.
    Proof.
      induction n as [|n IH]; intros i Hi; cbn [all_loop]; [reflexivity|]. rewrite (@su_load i) by nia. destruct (load i w) as [x| | |]; cbn [obind]; try reflexivity.
      destruct (negb (N.land x a =? b)); [reflexivity|]. apply IH. nia.
    Qed.
    Lemma su_last : negb (len v mod P * BITS E =? 0) = true -> len v / P * P < len v.
    Proof. intros G. pose proof (N.div_mod (len v) P ltac:(lia)) as D. assert (len v mod P <> 0) by (intros X; rewrite X in G; discriminate). nia. Qed.
    Lemma su_any x : any c E x v = any c E x w.
    Proof.
      unfold any, is_empty. rewrite <- (proj1 H). destruct (len v =? 0); [reflexivity|]. unfold block_index. pose proof (N.mul_div_le (len v) P ltac:(lia)) as L.
      destruct (one_mask c E) as [one| | |]; cbn [obind]; try reflexivity. destruct (shl c one _) as [high| | |]; cbn [obind]; try reflexivity.
      destruct (x_mask c E x) as [xm| | |]; cbn [obind]; try reflexivity. rewrite su_any_loop by (rewrite N.add_0_l, N2Nat.id; lia).
      destruct (any_loop _ _ _ _ _ _ w) as [[]| | |]; cbn [obind]; try reflexivity. destruct (negb _) eqn:G; [|reflexivity]. rewrite (su_load _ (su_last G)). reflexivity.
    Qed.
    Lemma su_all x : all c E x v = all c E x w.
    Proof.
      unfold all, is_empty. rewrite <- (proj1 H). destruct (len v =? 0); [reflexivity|]. unfold block_index. pose proof (N.mul_div_le (len v) P ltac:(lia)) as L.
      destruct (shr c (bones c) _) as [va| | |]; cbn [obind]; try reflexivity.
      destruct (x_mask c E x) as [xm| | |]; cbn [obind]; try reflexivity. rewrite su_all_loop by (rewrite N.add_0_l, N2Nat.id; lia).
      destruct (all_loop _ _ _ _ w) as [b| | |]; cbn [obind]; try reflexivity. destruct (negb b); [reflexivity|]. destruct (negb _) eqn:G; [|reflexivity]. rewrite (su_load _ (su_last G)). reflexivity.
    Qed.
    Lemma su_hash : hash c E v = hash c E w.
    Proof.
      unfold hash. rewrite <- (proj1 H). assert (G : forall n i, i + N.of_nat n <= len v -> hash_loop c E n i v = hash_loop c E n i w).
      { induction n as [|n IH]; intros i Hi; cbn [hash_loop]; [reflexivity|]. rewrite (@su_get_u i) by lia. destruct (get_raw_unchecked c E i w); cbn [obind]; try reflexivity. rewrite IH by lia. reflexivity. }
      apply G. lia.
    Qed.
    Lemma su_item o : iter_item c E v o = iter_item c E w o.
    Proof. unfold iter_item. destruct o; [rewrite su_get|]; reflexivity. Qed.
    Lemma su_to_vec : to_vec c E v = to_vec c E w.
    Proof.
      unfold to_vec. unfold into_iter. rewrite <- (proj1 H). generalize (mkRange 0 (len v)). intros r. generalize (N.to_nat (iter_size_hint r)). intros n. revert r.
      induction n as [|n IH]; intros r; cbn [iter_collect]; unfold iter_next; destruct (range_next r) as [o r']; rewrite su_item; destruct (iter_item c E w o) as [[x|]| | |]; try reflexivity.
      rewrite IH. reflexivity.
    Qed.
    Lemma su_iter calls : forall r, m_iter c E v r calls = m_iter c E w r calls.
    Proof.
      induction calls as [|ca calls IH]; intros r; cbn [m_iter]; [reflexivity|].
      destruct ca; unfold iter_next, iter_next_back, iter_nth;
        try match goal with |- context [range_next r] => destruct (range_next r) | |- context [range_next_back r] => destruct (range_next_back r) | |- context [range_nth ?n r] => destruct (range_nth n r) end;
        rewrite ?su_item, ?IH; reflexivity.
    Qed.
  End Two.
  Lemma su_eq v w v2 w2 : same_used c E v w -> same_used c E v2 w2 -> eq c E v v2 = eq c E w w2.
  Proof.
    intros H H2. unfold eq. rewrite <- (proj1 H), <- (proj1 H2). destruct (len v =? len v2) eqn:L; [|reflexivity].
    assert (G : forall n i, i + N.of_nat n <= len v -> eq_loop c E n i v v2 = eq_loop c E n i w w2); [|apply G; lia].
    induction n as [|n IH]; intros i Hi; cbn [eq_loop]; [reflexivity|]. rewrite (@su_get_u v w H i), (@su_get_u v2 w2 H2 i) by lia.
    destruct (get_raw_unchecked c E i w) as [a| | |]; cbn [obind]; try reflexivity. destruct (get_raw_unchecked c E i w2) as [b| | |]; cbn [obind]; try reflexivity.
    destruct (a =? b); [|reflexivity]. apply IH. lia.
  Qed.
End L4.
