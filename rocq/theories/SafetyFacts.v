(** SafetyFacts.v -- memory safety of programs on pools of vectors, with no
    assumption on from_discr and none on the contents. *)
From Verif Require Export PoolFacts.
From Coq Require Import ZifyBool ZifyNat ZifyN.
Open Scope N_scope.
Set Implicit Arguments.
Unset Strict Implicit.
Set Default Proof Using "Type*".

Lemma Forall_upd A (Q : A -> Prop) l r x : Forall Q l -> Q x -> Forall Q (upd l r x).
Proof. intros H Hx. revert r. induction H as [|y l Hy H IH]; intros [|r]; cbn; constructor; auto. Qed.
Lemma Forall_nth_error A (Q : A -> Prop) l r x : Forall Q l -> nth_error l r = Some x -> Q x.
Proof. intros H Hx. rewrite Forall_forall in H. apply H. eapply nth_error_In. exact Hx. Qed.

Section Safety.
  Context {T : Type} {c : cfg} {E : enumlike T}.
  Local Notation B := (BITS E).
  Local Notation P := (EPB c E).
  Local Notation WF := (WF c E).
  Local Notation RC := (RC c E).
  Local Notation D := (map (to_d E)).

  Hypothesis Hc : cfg_ok c.
  Hypothesis Hcomp : compiles c E = true.
  Hypothesis Hai : alloc_isize c.
  Hypothesis Hd : forall x, to_d E x < 2 ^ B.

  Local Notation rawlist := (@rawlist T c E).
  Local Notation raw H := (WF_RC Hc Hcomp Hd H).

  Definition safe_out (r : mout T * list ev) : Prop :=
    match fst r with MUB => False | MAbort => True | _ => Forall WF (snd r) end.

  Lemma safe_of_panic k p : Forall WF p -> safe_out (of_panic k, p).
  Proof. intros H. unfold safe_out. destruct k; exact H. Qed.
  Lemma safe_on A p r (m : M ev A) k : Forall WF p ->
    (forall v, nth_error p r = Some v -> WF v -> okr (fun _ v' => WF v') (fun _ v' => WF v') (m v)) -> safe_out (m_on p r m k).
  Proof.
    intros H Hm. unfold m_on. destruct (nth_error p r) as [v|] eqn:Hv; [|exact H].
    specialize (Hm v eq_refl (Forall_nth_error H Hv)). destruct (m v) as [[a|q| |] v']; cbn in Hm; cbn [of_outcome].
    - cbn. apply Forall_upd; assumption.
    - apply safe_of_panic. apply Forall_upd; assumption.
    - exact I.
    - contradiction.
  Qed.
  Lemma safe_read A p r (f : ev -> outcome A) k : Forall WF p ->
    (forall v, WF v -> f v <> UB) -> safe_out (m_read p r f k).
  Proof.
    intros H Hf. unfold m_read. destruct (nth_error p r) as [v|] eqn:Hv; [|exact H].
    specialize (Hf v (Forall_nth_error H Hv)). destruct (f v) as [a|q| |]; cbn [of_outcome].
    - exact H.
    - apply safe_of_panic. exact H.
    - exact I.
    - congruence.
  Qed.
  Lemma safe_new p o : Forall WF p -> ook WF (fun _ => True) o -> safe_out (m_new p o).
  Proof.
    intros H Ho. unfold m_new. destruct o as [v|q| |]; cbn in Ho; cbn [of_outcome].
    - cbn. apply Forall_app. auto.
    - apply safe_of_panic. exact H.
    - exact I.
    - contradiction.
  Qed.
  Lemma build_safe A (m : M ev A) : (forall v, WF v -> num v = 0 -> okr (fun _ v' => WF v') (fun _ v' => WF v') (m v)) -> ook WF (fun _ => True) (build c m).
  Proof.
    intros H. specialize (H (ev_new c) (rc_wf (RC_new Hc Hcomp Hd)) eq_refl). unfold build.
    destruct (m (ev_new c)) as [[a|k| |] v]; cbn in *; auto.
  Qed.

  Lemma get_not_UB v i : WF v -> get c E i v <> UB.
  Proof.
    intros H. rewrite (RC_get Hc Hcomp Hd i (raw H)). destruct (nthN _ _) as [d|]; [|discriminate].
    unfold from_discr. destruct (from_d E d); discriminate.
  Qed.
  Lemma iter_item_not_UB v o : WF v -> iter_item c E v o <> UB.
  Proof.
    intros H. destruct o as [i|]; [|discriminate]. cbn. pose proof (@get_not_UB v i H) as G.
    destruct (get c E i v) as [[x|]| | |]; cbn; congruence.
  Qed.
  Lemma m_iter_not_UB v calls : WF v -> forall r, m_iter c E v r calls <> UB.
  Proof.
    intros H. induction calls as [|ca calls IH]; intros r; [discriminate|]. cbn [m_iter].
    assert (G : forall (o : outcome (ires T)) r', o <> UB -> (let! x := o in let! l := m_iter c E v r' calls in Ret (x :: l)) <> UB).
    { intros o r' Ho. destruct o; cbn; try congruence. specialize (IH r'). destruct (m_iter c E v r' calls); cbn; congruence. }
    destruct ca as [| |n| |].
    - unfold iter_next. destruct (range_next r) as [o r']. apply G. pose proof (@iter_item_not_UB v o H). destruct (iter_item c E v o); cbn; congruence.
    - unfold iter_next_back. destruct (range_next_back r) as [o r']. apply G. pose proof (@iter_item_not_UB v o H). destruct (iter_item c E v o); cbn; congruence.
    - unfold iter_nth. destruct (range_nth n r) as [o r']. apply G. pose proof (@iter_item_not_UB v o H). destruct (iter_item c E v o); cbn; congruence.
    - apply G. discriminate.
    - apply G. discriminate.
  Qed.
  Lemma omap_not_UB (ds : list N) : omap (from_discr E) ds <> UB.
  Proof.
    induction ds as [|d ds IH]; [discriminate|]. cbn. unfold from_discr at 1. destruct (from_d E d); cbn; [|discriminate].
    destruct (omap (from_discr E) ds); cbn; congruence.
  Qed.

  Lemma extend_safe v it : WF v -> amount c E (lower it) = true -> okr (fun _ v' => WF v') (fun _ v' => WF v') (extend c E it v).
  Proof.
    intros H Ha. destruct (N.le_gt_cases (lenN (rawlist v) + lower it) (usize_max c)) as [Hle|Hgt].
    - eapply okr_mono; [apply (RC_extend Hc Hcomp Hd (raw H) Hle (amount_fits Hc Hcomp Hai Hd (raw H) Ha))|..].
      + intros u v' [_ [_ G]]. exact (rc_wf G).
      + intros k v' [[_ [l1 [l2 [_ G]]]]|[[_ [_ [_ G]]]|[_ [_ [junk [_ G]]]]]]; exact (rc_wf G).
    - rewrite (RC_extend_overflow Hc Hcomp Hd (raw H) Hgt). exact H.
  Qed.

  Lemma push_fails_wf cl v ds k v' : WF v -> push_fails c E cl v ds k v' -> WF v'.
  Proof. intros H [[_ ->]|[_ [_ G]]]; [exact H|exact (rc_wf G)]. Qed.

  Theorem step_safe p o : Forall WF p -> safe_op c E p o = true -> safe_out (m_step c E p o).
  Proof.
    intros H Hok.
    destruct o as [|n|x n|l0|it|r|r x|r|r i x|r i|r a b0|r i|r n|r|r n x|r i|r i x|r k|r|r it|r r2|r at_|r f|r f|r x|r x|r r2|r|r|r calls|r|r];
      cbn [m_step safe_op] in *.
    - (* new *) apply safe_new; [exact H|]. apply (rc_wf (RC_new Hc Hcomp Hd)).
    - (* with_capacity *) apply safe_new; [exact H|].
      eapply ook_mono; [apply (RC_with_capacity Hc Hcomp Hd (n := n))|..]; [unfold usz in Hok; lia| |auto].
      intros v [G _]. exact (rc_wf G).
    - (* from_elem *) apply safe_new; [exact H|]. apply build_safe. intros v Hv Hn0.
      eapply okr_mono; [apply (RC_extend_with_value Hc Hcomp Hd x Hai (raw Hv) (count := n))|..].
      + rewrite <- (rc_num (raw Hv)), Hn0. unfold usz in Hok; lia.
      + intros u v' G. exact (rc_wf G).
      + intros k v' [_ [m [_ G]]]. exact (rc_wf G).
    - (* from_slice *) apply safe_new; [exact H|]. apply build_safe. intros v Hv Hn0. apply extend_safe; assumption.
    - (* from_iter *) apply safe_new; [exact H|]. apply build_safe. intros v Hv Hn0. apply extend_safe; assumption.
    - (* clone *) destruct (nth_error p r) as [v|] eqn:Hp; [|exact H]. apply safe_new; [exact H|].
      eapply ook_mono; [apply (RC_clone Hc Hcomp Hd (raw (Forall_nth_error H Hp)))|..]; [|auto].
      intros w G. exact (rc_wf G).
    - (* push *) apply safe_on; [exact H|]. intros v _ Hv.
      eapply okr_mono; [apply (RC_push Hc Hcomp Hd x (raw Hv))|..].
      + intros u v' G. exact (rc_wf G).
      + intros k v' G. exact (push_fails_wf Hv G).
    - (* pop *) apply safe_on; [exact H|]. intros v _ Hv. pose proof (raw Hv) as HR.
      destruct (snoc_cases (rawlist v)) as [Hr|[ds [d Hr]]]; rewrite Hr in HR.
      + rewrite (RC_pop_nil Hc Hcomp Hd HR). exact Hv.
      + eapply okr_mono; [apply (RC_pop_snoc Hc Hcomp Hd HR)|..].
        * intros o v' [G _]. exact (rc_wf G).
        * intros k v' [_ [-> _]]. exact Hv.
    - (* insert *) apply safe_on; [exact H|]. intros v _ Hv.
      eapply okr_mono; [apply (RC_insert_safe Hc Hcomp Hd i x (raw Hv))|..].
      + intros u v' [G _]. exact G.
      + intros k v' [G|[_ [_ [G _]]]]; [exact (push_fails_wf Hv G)|exact G].
    - (* remove *) apply safe_on; [exact H|]. intros v _ Hv.
      eapply okr_mono; [apply (RC_remove_safe Hc Hcomp Hd i (raw Hv))|..].
      + intros u v' [G _]. exact G.
      + intros k v' [[_ [-> _]]|[[_ [-> _]]|[[_ [_ [_ [G _]]]]|[_ [_ [-> _]]]]]]; assumption.
    - (* swap *) apply safe_on; [exact H|]. intros v _ Hv. pose proof (raw Hv) as HR.
      destruct (N.le_gt_cases (lenN (rawlist v)) a) as [Ha|Ha]; [|destruct (N.le_gt_cases (lenN (rawlist v)) b0) as [Hb|Hb]].
      + rewrite (RC_swap_oob Hc Hcomp Hd (ia := a) (ib := b0) HR) by auto. exact Hv.
      + rewrite (RC_swap_oob Hc Hcomp Hd (ia := a) (ib := b0) HR) by auto. exact Hv.
      + destruct (nthN_lt_Some Ha) as [x Hx]. destruct (nthN_lt_Some Hb) as [y Hy].
        eapply okr_mono; [apply (RC_swap Hc Hcomp Hd HR Hx Hy)|..].
        * intros u v' G. exact (rc_wf G).
        * intros k v' [].
    - (* swap_remove *) apply safe_on; [exact H|]. intros v _ Hv. pose proof (raw Hv) as HR.
      destruct (N.le_gt_cases (lenN (rawlist v)) i) as [Hi|Hi].
      + destruct (RC_swap_remove_oob Hc Hcomp Hd (index := i) HR Hi) as [k [-> _]]. exact Hv.
      + destruct (nthN_lt_Some Hi) as [x Hx].
        destruct (snoc_cases (rawlist v)) as [Hr|[ds [d Hr]]]; rewrite Hr in *; [cbn in Hi; lia|].
        eapply okr_mono; [apply (RC_swap_remove Hc Hcomp Hd HR Hx)|..].
        * intros u v' [_ G]. exact (rc_wf G).
        * intros k v' [_ [_ [G _]]]. exact G.
    - (* truncate *) apply safe_on; [exact H|]. intros v _ Hv.
      eapply okr_mono; [apply (RC_truncate Hc Hcomp Hd n (raw Hv))|..].
      + intros u v' [G _]. exact (rc_wf G).
      + intros k v' [].
    - (* clear *) apply safe_on; [exact H|]. intros v _ Hv.
      eapply okr_mono; [apply (RC_truncate Hc Hcomp Hd 0 (raw Hv))|..].
      + intros u v' [G _]. exact (rc_wf G).
      + intros k v' [].
    - (* resize *) apply safe_on; [exact H|]. intros v _ Hv.
      eapply okr_mono; [apply (RC_resize Hc Hcomp Hd (n := n) x Hai (raw Hv))|..].
      + unfold usz in Hok; lia.
      + intros u v' G. exact (rc_wf G).
      + intros k v' [_ [m [_ G]]]. exact (rc_wf G).
    - (* get *) apply safe_read; [exact H|]. intros v Hv. apply get_not_UB; exact Hv.
    - (* set *) apply safe_on; [exact H|]. intros v _ Hv.
      destruct (N.le_gt_cases (lenN (rawlist v)) i) as [Hi|Hi].
      + unfold set. rewrite (RC_set_raw_oob Hc Hcomp Hd (i := i) _ (raw Hv) Hi). exact Hv.
      + eapply okr_mono; [apply (RC_set_raw Hc Hcomp Hd (raw Hv) Hi (Hd x))|..].
        * intros u v' G. exact (rc_wf G).
        * intros k v' [].
    - (* reserve *) apply safe_on; [exact H|]. intros v _ Hv.
      destruct (N.le_gt_cases (lenN (rawlist v) + k) (usize_max c)) as [Hle|Hgt].
      + eapply okr_mono; [apply (RC_reserve Hc Hcomp Hd (raw Hv) Hle (amount_fits Hc Hcomp Hai Hd (raw Hv) Hok))|..].
        * intros u v' [G _]. exact (rc_wf G).
        * intros q v' [_ G]. rewrite ?G. exact Hv.
      + rewrite (RC_reserve_overflow Hc Hcomp Hd (raw Hv) Hgt). exact Hv.
    - (* shrink *) apply safe_on; [exact H|]. intros v Hp Hv. rewrite (reg_nth _ Hp) in Hok.
      eapply okr_mono; [apply (fun K => RC_shrink_to_fit Hc Hcomp Hd K (raw Hv))|..].
      + rewrite <- (rc_num (raw Hv)). apply (countable_fixable Hc Hcomp Hai Hd). exact Hok.
      + intros u v' [G _]. exact (rc_wf G).
      + intros k v' [].
    - (* extend *) apply safe_on; [exact H|]. intros v _ Hv. apply extend_safe; assumption.
    - (* append *) destruct (nth_error p r) as [v|] eqn:Hp; [destruct (nth_error p r2) as [w|] eqn:Hp2|]; try exact H.
      destruct (Nat.eqb_spec r r2) as [->|Hne]; [exact H|].
      rewrite (reg_nth _ Hp), (reg_nth _ Hp2) in Hok.
      pose proof (Forall_nth_error H Hp) as Hv. pose proof (Forall_nth_error H Hp2) as Hw.
      pose proof (raw Hv) as HR. pose proof (raw Hw) as HR2.
      destruct (N.eqb_spec (len v mod P) 0) as [Hm|Hm].
      + cbn [negb orb] in Hok. apply andb_true_iff in Hok. destruct Hok as [Hok Hsum]. apply andb_true_iff in Hok. destruct Hok as [Hok Hcn].
        pose proof (RC_append_fast Hc Hcomp Hd HR HR2) as G. rewrite <- (rc_num HR), <- (rc_num HR2) in G.
        specialize (G Hm (countable_fixable Hc Hcomp Hai Hd Hcn) (summable_fits Hc Hcomp Hai Hd Hsum)).
        destruct (append c E (v, w)) as [[u|k| |] [v' w']]; cbn [fst snd of_outcome] in G |- *; cbn in G.
        * destruct G as [G1 G2]. cbn. apply Forall_upd; [apply Forall_upd; [exact H|exact (rc_wf G1)]|].
          destruct (small c); [exact (rc_wf G2)|]. cbn [orb negb] in Hok. apply N.eqb_eq in Hok.
          destruct G2 as [K1 [K2 K3]].
          constructor; rewrite ?K2, ?K3; unfold vlen; rewrite ?K2; cbn.
          -- constructor.
          -- unfold len in Hok. rewrite K1, Hok. lia.
          -- lia.
          -- apply (wf_alloc Hw).
          -- rewrite K1. apply (wf_num Hw).
        * destruct G as [_ [G1 G2]]. apply safe_of_panic. apply Forall_upd; [apply Forall_upd; [exact H|exact (rc_wf G1)]|exact (rc_wf G2)].
        * exact I.
        * contradiction.
      + pose proof (RC_append_slow Hc Hcomp Hd HR HR2) as G. rewrite <- (rc_num HR) in G. specialize (G Hm).
        destruct (append c E (v, w)) as [[u|k| |] [v' w']]; cbn [fst snd of_outcome] in G |- *; cbn in G.
        * destruct G as [G1 [G2 _]]. cbn. apply Forall_upd; [apply Forall_upd; [exact H|exact (rc_wf G1)]|exact (rc_wf G2)].
        * destruct G as [_ G]. injection G as -> ->. apply safe_of_panic. apply Forall_upd; [apply Forall_upd; assumption|assumption].
        * exact I.
        * contradiction.
    - (* split_off *) destruct (nth_error p r) as [v|] eqn:Hp; [|exact H].
      rewrite (reg_nth _ Hp) in Hok. apply N.leb_le in Hok. pose proof (Forall_nth_error H Hp) as Hv.
      unfold split_off. destruct (N.leb_spec at_ (len v)) as [Hle|Hgt].
      + assert (at_ = len v) by lia. subst at_.
        unfold bind at 1, reads at 1. rewrite (usub_ok Hc Hcomp) by lia. rewrite N.sub_diag.
        unfold bind at 1, lift at 1.
        pose proof (RC_with_capacity Hc Hcomp Hd (n := 0) (N.le_0_l _)) as G.
        destruct (with_capacity c E 0) as [w|k| |]; cbn in G.
        * destruct G as [G _]. cbn. apply Forall_app. split; [|constructor; [|constructor]].
          -- apply Forall_upd; [exact H|]. unfold len. destruct v; exact Hv.
          -- exact (rc_wf (RC_set_len_le Hc Hcomp Hd (n := 0) G (N.le_refl _))).
        * apply safe_of_panic. apply Forall_upd; assumption.
        * exact I.
        * contradiction.
      + apply safe_of_panic. apply Forall_upd; assumption.
    - (* retain *) apply safe_on; [exact H|]. intros v _ Hv.
      eapply okr_mono; [apply (WF_retain Hc Hcomp Hd (seen_pred f) [] Hv)|..].
      + intros u v' G. exact G.
      + intros k v' [G _]. exact G.
    - (* for_each *) apply safe_on; [exact H|]. intros v _ Hv.
      eapply okr_mono; [apply (WF_for_each Hc Hcomp Hd (seen_map f) [] Hv)|..].
      + intros u v' [G _]. exact G.
      + intros k v' [G _]. exact G.
    - (* any *) apply safe_read; [exact H|]. intros v Hv. destruct (RC_any Hc Hcomp Hd x (raw Hv)) as [a [-> _]]. discriminate.
    - (* all *) apply safe_read; [exact H|]. intros v Hv. destruct (RC_all Hc Hcomp Hd x (raw Hv)) as [a [-> _]]. discriminate.
    - (* eq *) destruct (nth_error p r) as [v|] eqn:Hp; [destruct (nth_error p r2) as [w|] eqn:Hp2|]; try exact H.
      destruct (RC_eq Hc Hcomp Hd (raw (Forall_nth_error H Hp)) (raw (Forall_nth_error H Hp2))) as [a [-> _]]. exact H.
    - (* hash *) apply safe_read; [exact H|]. intros v Hv. rewrite (RC_hash Hc Hcomp Hd (raw Hv)). discriminate.
    - (* to_vec *) apply safe_read; [exact H|]. intros v Hv. rewrite (RC_to_vec Hc Hcomp Hd (raw Hv)). apply omap_not_UB.
    - (* iter *) apply safe_read; [exact H|]. intros v Hv. apply m_iter_not_UB. exact Hv.
    - (* len *) apply safe_read; [exact H|]. discriminate.
    - (* is_empty *) apply safe_read; [exact H|]. discriminate.
  Qed.

  Theorem run_safe prog : forall p, Forall WF p -> safe_run c E p prog = true ->
    ~ In MUB (fst (m_run c E p prog)) /\ (~ In MAbort (fst (m_run c E p prog)) -> Forall WF (snd (m_run c E p prog))).
  Proof.
    induction prog as [|o prog IH]; intros p H Hok; cbn [m_run safe_run] in *; [cbn; auto|].
    apply andb_true_iff in Hok. destruct Hok as [Hok1 Hok2].
    pose proof (step_safe H Hok1) as Hs. unfold safe_out in Hs.
    destruct (m_step c E p o) as [r p']. cbn [fst snd] in *.
    destruct r as [r| | |].
    - specialize (IH _ Hs Hok2). destruct (m_run c E p' prog) as [rs p'']. cbn in *. destruct IH as [I1 I2].
      split; [intros [G|G]; [discriminate|auto]|]. intros G. apply I2. intros K. apply G. auto.
    - specialize (IH _ Hs Hok2). destruct (m_run c E p' prog) as [rs p'']. cbn in *. destruct IH as [I1 I2].
      split; [intros [G|G]; [discriminate|auto]|]. intros G. apply I2. intros K. apply G. auto.
    - cbn. split; [intros [G|[]]; discriminate|]. intros G. exfalso. apply G. auto.
    - contradiction.
  Qed.
End Safety.
