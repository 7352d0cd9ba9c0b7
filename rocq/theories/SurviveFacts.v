(** SurviveFacts.v -- what calls that run out of memory leave behind, for pools of vectors. *)
From Verif Require Export ClientFacts.
From Coq Require Import ZifyBool ZifyNat ZifyN.
Open Scope N_scope.
Set Implicit Arguments.
Unset Strict Implicit.
Set Default Proof Using "Type*".

Section Survive.
  Context {T : Type} {c : cfg} {E : enumlike T}.
  Hypothesis Hs : setting c E.
  Hypothesis Hroomy : roomy c.
  Local Notation PR := (@PR T c E).
  Local Notation RC := (RC c E).
  Local Notation D := (map (to_d E)).
  Local Notation Hc := (s_ok Hs).
  Local Notation Hcomp := (s_comp Hs).
  Local Notation Hai := (s_alloc Hs).
  Local Notation Hd := (s_d Hs).
  Local Notation Hfd := (s_fd Hs).

  Lemma fixable_le m n : fixable c E n -> m <= n -> fixable c E m.
  Proof. unfold fixable. lia. Qed.
  Lemma cap_of q : of_panic (T := T) q = MCap -> cap_panic q.
  Proof. unfold cap_panic. destruct q; cbn; intros X; try discriminate; auto. Qed.

  (** calls on one vector *)
  Lemma cap_on A p sp cl r (m : M ev A) (k : A -> res T) (Q : list T -> list T -> Prop) p' : PR p sp cl -> (divides c E = true -> all_true cl) ->
    m_on p r m k = (MCap, p') ->
    (forall v l b, RC b v (D l) -> okr (fun _ _ => True)
       (fun q v' => cap_panic q -> exists l' b', (divides c E = true -> b = true -> b' = true) /\ RC b' v' (D l') /\ Q l l') (m v)) ->
    exists l l', nth_error sp r = Some l /\ Q l l' /\ inv (c := c) (E := E) p' (upd sp r l').
  Proof.
    intros [H1 [H2 H3]] Hcl Hon Hm. revert Hon. unfold m_on. destruct (nth_error p r) as [v|] eqn:Hp; [|discriminate].
    destruct (nth_error_same_len H1 Hp) as [l Hl]. destruct (nth_error_same_len H2 Hp) as [b Hb].
    pose proof (Hm v l b (H3 _ _ _ _ Hp Hl Hb)) as G. destruct (m v) as [[a|q| |] v']; cbn in G |- *; intros X; try discriminate.
    injection X as X <-. destruct (G (cap_of X)) as [l' [b' [G1 [G2 G3]]]]. exists l, l'. split; [exact Hl|]. split; [exact G3|].
    exists (upd cl r b'). split.
    - apply (PR_upd Hc Hcomp Hai Hd Hfd); [split; auto|exact G2].
    - intros Hdv. apply upd_true; [exact (Hcl Hdv)|]. exact (G1 Hdv (nth_true (Hcl Hdv) Hb)).
  Qed.
  Lemma upd_id (sp : list (list T)) r l : nth_error sp r = Some l -> upd sp r l = sp.
  Proof. apply nth_error_upd_same. Qed.
  Lemma no_cap_read A p r (g : ev -> outcome A) (k : A -> res T) p' :
    (forall v a, nth_error p r = Some v -> g v = Panic a -> ~ cap_panic a) -> m_read p r g k <> (MCap, p').
  Proof.
    intros Hg. unfold m_read. destruct (nth_error p r) as [v|] eqn:Hp; [|discriminate].
    destruct (g v) as [a|q| |] eqn:Hv; cbn; intros X; try discriminate. injection X as X _. exact (Hg _ _ eq_refl Hv (cap_of X)).
  Qed.
  Lemma sim_read_nocap A p sp cl r (g : ev -> outcome A) (k : A -> res T) p' : PR p sp cl ->
    (forall v l b, RC b v (D l) -> exists a, g v = Ret a) -> m_read p r g k <> (MCap, p').
  Proof.
    intros [H1 [H2 H3]] Hg. apply no_cap_read. intros v a Hp Ha.
    destruct (nth_error_same_len H1 Hp) as [l Hl]. destruct (nth_error_same_len H2 Hp) as [b Hb].
    destruct (Hg v l b (H3 _ _ _ _ Hp Hl Hb)) as [x Hx]. congruence.
  Qed.
  Lemma cap_new p (o : outcome ev) p' : m_new p o = (MCap (T := T), p') -> p' = p.
  Proof. unfold m_new. destruct o as [v|q| |]; cbn; intros X; try discriminate. injection X as _ <-. reflexivity. Qed.

  Lemma cap_step p sp o p' : inv (c := c) (E := E) p sp -> plain_op c E o = true -> m_step c E p o = (MCap, p') ->
    exists sp', leaves sp o sp' /\ inv (c := c) (E := E) p' sp'.
  Proof.
    intros HI Hok. pose proof HI as [cl [H Hcl]].
    assert (same : (match o with
                     | OWithCapacity _ | OFromElem _ _ | OFromSlice _ | OFromIter _ | OClone _ | OPush _ _
                     | OInsert _ _ _ | OReserve _ _ | OAppend _ _ => True
                     | _ => False end) -> p' = p -> exists sp', leaves sp o sp' /\ inv (c := c) (E := E) p' sp').
    { intros Ho ->. exists sp. split; [constructor; exact Ho|exact HI]. }
    (* calls on one vector that change nothing when they run out of memory *)
    assert (on1 : forall A r (m : M ev A) (k : A -> res T), (match o with
                     | OWithCapacity _ | OFromElem _ _ | OFromSlice _ | OFromIter _ | OClone _ | OPush _ _
                     | OInsert _ _ _ | OReserve _ _ | OAppend _ _ => True
                     | _ => False end) ->
      (forall v l b, RC b v (D l) -> okr (fun _ _ => True) (fun q v' => cap_panic q -> v' = v) (m v)) ->
      m_on p r m k = (MCap, p') -> exists sp', leaves sp o sp' /\ inv (c := c) (E := E) p' sp').
    { intros A r m k Ho Hm Hr. destruct (cap_on (Q := fun l l' => l' = l) H Hcl Hr) as [l [l' [Hl [-> G]]]].
      - intros v l b HR. eapply okr_mono; [exact (Hm v l b HR)|auto|]. cbv beta. intros q v' Hq Hcp. rewrite (Hq Hcp). eauto 10.
      - rewrite (upd_id Hl) in G. exists sp. split; [constructor; exact Ho|exact G]. }
    (* calls on one vector that cannot run out of memory *)
    assert (never : forall A r (m : M ev A) (k : A -> res T),
      (forall v l b, RC b v (D l) -> okr (fun _ _ => True) (fun q _ => ~ cap_panic q) (m v)) ->
      m_on p r m k = (MCap, p') -> exists sp', leaves sp o sp' /\ inv (c := c) (E := E) p' sp').
    { intros A r m k Hm Hr. destruct (cap_on (Q := fun _ _ => False) H Hcl Hr) as [l [l' [_ [[] _]]]].
      intros v l b HR. eapply okr_mono; [exact (Hm v l b HR)|auto|]. cbv beta. intros q v' Hq Hcp. contradiction. }
    assert (read : forall A r (g : ev -> outcome A) (k : A -> res T), (forall v l b, RC b v (D l) -> exists a, g v = Ret a) ->
      m_read p r g k = (MCap, p') -> exists sp', leaves sp o sp' /\ inv (c := c) (E := E) p' sp').
    { intros A r g k Hg Hr. destruct (sim_read_nocap H Hg Hr). }
    assert (NE : forall q, q = PUnwrap \/ q = POverflow \/ q = PIndex \/ q = PUser -> ~ cap_panic q)
      by (intros q Hq [X|X]; destruct Hq as [Y|[Y|[Y|Y]]]; congruence).
    destruct o as [|n|x n|l0|it|r|r x|r|r i x|r i|r a b0|r i|r n|r|r n x|r i|r i x|r k|r|r it|r r2|r at_|r f|r f|r x|r x|r r2|r|r|r calls|r|r];
      cbn [m_step plain_op] in *; intros Hm.
    - discriminate.
    - apply (same I). exact (cap_new Hm).
    - apply (same I). exact (cap_new Hm).
    - apply (same I). exact (cap_new Hm).
    - apply (same I). exact (cap_new Hm).
    - destruct (nth_error p r); [|discriminate]. apply (same I). exact (cap_new Hm).
    - (* push *) refine (on1 _ _ _ _ I _ Hm). intros v l b HR.
      eapply okr_mono; [apply (RC_push Hc Hcomp Hd x HR)|auto|]. intros q v' G _. exact (proj2 (push_fails_roomy Hc Hcomp Hd Hroomy HR G)).
    - (* pop *) refine (never _ _ _ _ _ Hm). intros v l b HR. destruct (snoc_cases l) as [->|[l' [x ->]]].
      + rewrite (RC_pop_nil Hc Hcomp Hd HR). exact I.
      + rewrite map_app in HR. eapply okr_mono; [apply (RC_pop_snoc Hc Hcomp Hd HR)|auto|].
        intros q v' [_ [_ G]]. rewrite Hfd in G. discriminate.
    - (* insert *) apply andb_prop in Hok. destruct Hok as [Hb Hu]. unfold usz in Hu. apply N.leb_le in Hu.
      refine (on1 _ _ _ _ I _ Hm). intros v l b HR. destruct (N.le_gt_cases i (lenN l)) as [Hi|Hi].
      + eapply okr_mono; [apply (RC_insert Hc Hcomp Hd (index := i) x (fixable_le (m := i) (RC_fixable Hc Hcomp Hd Hroomy HR) ltac:(rewrite lenN_map; lia)) (ltac:(lia)) HR); rewrite lenN_map; exact Hi|auto|].
        intros q v' G _. exact (proj2 (push_fails_roomy Hc Hcomp Hd Hroomy HR G)).
      + eapply okr_mono; [apply (RC_insert_past Hc Hcomp Hd (index := i) x HR); [rewrite lenN_map; exact Hi|lia]|auto|].
        intros q v' [G|[-> _]] Hq; [exact (proj2 (push_fails_roomy Hc Hcomp Hd Hroomy HR G))|]. destruct (NE POverflow); auto.
    - (* remove *) apply andb_prop in Hok. destruct Hok as [Hb Hdv]. refine (never _ _ _ _ _ Hm). intros v l b HR.
      destruct (nthN l i) as [x|] eqn:Hx.
      + eapply okr_mono; [apply (fun K => RC_remove Hc Hcomp Hd (index := i) (d := to_d E x) (x := x) K (RC_or Hc Hcomp Hai Hd HR))|auto|].
        * apply (fixable_le (RC_fixable Hc Hcomp Hd Hroomy HR)). rewrite lenN_map. pose proof (nthN_Some_lt Hx). lia.
        * rewrite nthN_map, Hx. reflexivity.
        * apply Hfd.
        * left. split; [lia|]. rewrite Hdv. apply orb_true_r.
        * intros q v' [].
      + rewrite (remove_oob Hc Hcomp Hd (index := i) HR).
        * cbn. auto.
        * rewrite lenN_map. destruct (N.le_gt_cases (lenN l) i) as [|Hlt]; [assumption|].
          destruct (nthN_lt_Some Hlt) as [y Hy]. congruence.
    - (* swap *) refine (never _ _ _ _ _ Hm). intros v l b HR.
      destruct (nthN l a) as [x|] eqn:Hx; [destruct (nthN l b0) as [y|] eqn:Hy|].
      + eapply okr_mono; [apply (RC_swap Hc Hcomp Hd (ia := a) (ib := b0) (a := to_d E x) (b := to_d E y) HR)|auto|];
          [rewrite nthN_map, Hx; reflexivity|rewrite nthN_map, Hy; reflexivity|intros q v' []].
      + rewrite (RC_swap_oob Hc Hcomp Hd (ia := a) (ib := b0) HR); [cbn; auto|]. right. rewrite lenN_map.
        destruct (N.le_gt_cases (lenN l) b0) as [|Hlt]; [assumption|]. destruct (nthN_lt_Some Hlt) as [y Hy']. congruence.
      + rewrite (RC_swap_oob Hc Hcomp Hd (ia := a) (ib := b0) HR); [cbn; auto|]. left. rewrite lenN_map.
        destruct (N.le_gt_cases (lenN l) a) as [|Hlt]; [assumption|]. destruct (nthN_lt_Some Hlt) as [y Hy']. congruence.
    - (* swap_remove *) refine (never _ _ _ _ _ Hm). intros v l b HR.
      destruct (nthN l i) as [x|] eqn:Hx.
      + destruct (snoc_cases l) as [->|[l' [y ->]]]; [apply nthN_Some_lt in Hx; cbn in Hx; lia|].
        assert (Hx2 : nthN (D l' ++ [to_d E y]) i = Some (to_d E x)).
        { change [to_d E y] with (D [y]). rewrite <- map_app, nthN_map, Hx. reflexivity. }
        rewrite map_app in HR. cbn [map] in HR.
        eapply okr_mono; [apply (RC_swap_remove Hc Hcomp Hd HR Hx2)|auto|].
        intros k v' [_ [G _]]. rewrite Hfd in G. discriminate.
      + destruct (RC_swap_remove_oob Hc Hcomp Hd (index := i) HR) as [k [-> Hk]].
        * rewrite lenN_map. destruct (N.le_gt_cases (lenN l) i) as [|Hlt]; [assumption|].
          destruct (nthN_lt_Some Hlt) as [y Hy]. congruence.
        * cbn. apply NE. destruct Hk as [->|[-> _]]; auto.
    - (* truncate *) refine (never _ _ _ _ _ Hm). intros v l b HR. eapply okr_mono; [apply (RC_truncate Hc Hcomp Hd n HR)|auto|]. intros q v' [].
    - (* clear *) refine (never _ _ _ _ _ Hm). intros v l b HR. eapply okr_mono; [apply (RC_truncate Hc Hcomp Hd 0 HR)|auto|]. intros q v' [].
    - (* resize *) unfold usz in Hok. apply N.leb_le in Hok.
      destruct (cap_on (Q := fun l l' => lenN l < n /\ exists m, lenN l + m <= n /\ l' = l ++ repeat x (N.to_nat m)) H Hcl Hm)
        as [l [l' [Hl [[Hlt [m [Hm' ->]]] G]]]].
      + intros v l b HR. destruct (N.lt_ge_cases (lenN l) n) as [Hlt|Hge].
        * eapply okr_mono; [apply (RC_resize Hc Hcomp Hd (n := n) x Hai HR Hok)|auto|].
          intros q v' [_ [m [Hm' G]]] _. rewrite lenN_map in Hm'. exists (l ++ repeat x (N.to_nat m)), (false || divides c E).
          split; [intros -> _; reflexivity|]. split; [|split; [exact Hlt|exists m; split; [lia|reflexivity]]].
          apply (RC_or Hc Hcomp Hai Hd). rewrite map_app, map_repeat. exact G.
        * unfold resize. eapply okr_reads; [reflexivity|]. unfold len. rewrite (rc_num HR), lenN_map.
          rewrite (proj2 (N.ltb_ge _ _)) by lia.
          eapply okr_mono; [apply (RC_truncate Hc Hcomp Hd n HR)|auto|]. intros q v' [].
      + exists (upd sp r (l ++ repeat x (N.to_nat m))). split; [|exact G]. constructor; assumption.
    - (* get *) refine (read _ _ _ _ _ Hm). intros v l b HR. rewrite (RC_get_lawful Hc Hcomp Hd Hfd _ HR). eauto.
    - (* set *) refine (never _ _ _ _ _ Hm). intros v l b HR. destruct (N.lt_ge_cases i (lenN l)) as [Hi|Hi].
      + eapply okr_mono; [apply (RC_set_lawful Hc Hcomp Hd Hfd x HR Hi)|auto|]. intros q v' [].
      + unfold set. rewrite (RC_set_raw_oob Hc Hcomp Hd (i := i) _ HR) by (rewrite lenN_map; exact Hi). cbn. auto.
    - (* reserve *) refine (on1 _ _ _ _ I _ Hm). intros v l b HR.
      destruct (N.le_gt_cases (lenN (D l) + k) (usize_max c)) as [Hle|Hgt].
      + eapply okr_mono; [apply (RC_reserve Hc Hcomp Hd HR Hle (amount_fits Hc Hcomp Hai Hd HR Hok))|auto|]. intros q v' [_ G] _. exact G.
      + rewrite (RC_reserve_overflow Hc Hcomp Hd HR Hgt). cbn. reflexivity.
    - (* shrink *) refine (never _ _ _ _ _ Hm). intros v l b HR. eapply okr_mono; [apply (RC_shrink_to_fit Hc Hcomp Hd (fixable_le (m := lenN (D l)) (RC_fixable Hc Hcomp Hd Hroomy HR) ltac:(lia)) HR)|auto|]. intros q v' [].
    - (* extend *) unfold honest in Hok. apply andb_true_iff in Hok. destruct Hok as [Ha Hle2]. apply N.leb_le in Hle2.
      destruct (cap_on (Q := fun l l' => exists l1 l2, items it = l1 ++ l2 /\ l' = l ++ l1) H Hcl Hm)
        as [l [l' [Hl [[l1 [l2 [E1 ->]]] G]]]].
      + intros v l b HR. destruct (N.le_gt_cases (lenN (D l) + lower it) (usize_max c)) as [Hle|Hgt].
        * eapply okr_mono; [apply (RC_extend Hc Hcomp Hd HR Hle (amount_fits Hc Hcomp Hai Hd HR Ha))|auto|].
          intros q v' [[_ [l1 [l2 [E1 G]]]]|[[-> _]|[-> _]]] Hq.
          -- exists (l ++ l1), b. split; [auto|]. split; [rewrite map_app; exact G|]. eauto.
          -- destruct (NE PUser); auto.
          -- destruct (ends_in_panic it); [destruct (NE PUser)|destruct (NE PUnwrap)]; auto.
        * rewrite (RC_extend_overflow Hc Hcomp Hd HR Hgt). cbn. intros _. exists l, b. split; [auto|]. split; [exact HR|].
          exists [], (items it). rewrite app_nil_r. auto.
      + exists (upd sp r (l ++ l1)). split; [|exact G]. econstructor; eassumption.
    - (* append *) pose proof (proj1 H) as HL1. pose proof (proj1 (proj2 H)) as HL2.
      destruct (nth_error p r) as [v|] eqn:Hp; [destruct (nth_error p r2) as [w|] eqn:Hp2|]; try discriminate Hm.
      destruct (Nat.eqb_spec r r2) as [|Hne]; [discriminate Hm|].
      destruct (nth_error_same_len HL1 Hp) as [l Hl]. destruct (nth_error_same_len HL2 Hp) as [b Hb].
      destruct (nth_error_same_len HL1 Hp2) as [l2 Hl2]. destruct (nth_error_same_len HL2 Hp2) as [b2 Hb2].
      pose proof (proj2 (proj2 H) _ _ _ _ Hp Hl Hb) as HR. pose proof (proj2 (proj2 H) _ _ _ _ Hp2 Hl2 Hb2) as HR2.
      exists sp. split; [constructor; exact I|].
      assert (Hgen : forall v' w', RC b v' (D l) -> RC b2 w' (D l2) -> PR (upd (upd p r v') r2 w') sp cl).
      { intros v' w' G1 G2. rewrite <- (upd_id Hl) at 1. rewrite <- (nth_error_upd_same (l := upd sp r l) (r := r2) (x := l2)).
        - apply (PR_upd_same Hc Hcomp Hai Hd Hfd) with (b := b2); [apply (PR_upd_same Hc Hcomp Hai Hd Hfd) with (b := b); assumption|exact Hb2|exact G2].
        - rewrite (upd_id Hl). exact Hl2. }
      exists cl. split; [|exact Hcl]. destruct (N.eqb_spec (lenN l mod EPB c E) 0) as [Hmd|Hmd].
      + pose proof (RC_append_fast Hc Hcomp Hd HR HR2) as G. rewrite !lenN_map in G. specialize (G Hmd).
        specialize (G (fixable_le (m := lenN l2) (RC_fixable Hc Hcomp Hd Hroomy HR2) ltac:(rewrite lenN_map; lia)) (append_fits Hc Hcomp Hd Hroomy (m := _) (n := _))).
        destruct (append c E (v, w)) as [[u|q| |] [v' w']]; cbn [fst snd of_outcome] in G, Hm; try discriminate Hm. cbn in G.
        injection Hm as _ <-. destruct G as [_ [G1 G2]]. apply Hgen; assumption.
      + pose proof (RC_append_slow Hc Hcomp Hd HR HR2) as G. rewrite lenN_map in G. specialize (G Hmd).
        destruct (append c E (v, w)) as [[u|q| |] [v' w']]; cbn [fst snd of_outcome] in G, Hm; try discriminate Hm. cbn in G.
        injection Hm as _ <-. destruct G as [_ G]. injection G as -> ->. apply Hgen; assumption.
    - discriminate.
    - (* retain *) refine (never _ _ _ _ _ Hm). intros v l b HR.
      pose proof (RC_retain Hc Hcomp Hd Hfd (seen_pred f) [] HR) as G.
      destruct (l_retain (seen_pred f) [] l) as [K [seen|]]; (eapply okr_mono; [exact G|auto|]); intros q v' G'; apply NE; destruct G' as [-> _]; auto.
    - (* for_each *) refine (never _ _ _ _ _ Hm). intros v l b HR.
      pose proof (RC_for_each Hc Hcomp Hd Hfd (seen_map f) [] HR) as G.
      destruct (l_map (seen_map f) [] l) as [K [seen|]]; (eapply okr_mono; [exact G|auto|]); intros q v' G'; apply NE; destruct G' as [-> _]; auto.
    - refine (read _ _ _ _ _ Hm). intros v l b HR. destruct (RC_any Hc Hcomp Hd x HR) as [a [-> _]]. eauto.
    - refine (read _ _ _ _ _ Hm). intros v l b HR. destruct (RC_all Hc Hcomp Hd x HR) as [a [-> _]]. eauto.
    - destruct (nth_error p r) as [v|] eqn:Hp; [destruct (nth_error p r2) as [w|] eqn:Hp2|]; try discriminate Hm.
      destruct (nth_error_same_len (proj1 H) Hp) as [l Hl]. destruct (nth_error_same_len (proj1 (proj2 H)) Hp) as [b Hb].
      destruct (nth_error_same_len (proj1 H) Hp2) as [l2 Hl2]. destruct (nth_error_same_len (proj1 (proj2 H)) Hp2) as [b2 Hb2].
      destruct (RC_eq Hc Hcomp Hd (proj2 (proj2 H) _ _ _ _ Hp Hl Hb) (proj2 (proj2 H) _ _ _ _ Hp2 Hl2 Hb2)) as [a [Ea _]].
      rewrite Ea in Hm. discriminate.
    - refine (read _ _ _ _ _ Hm). intros v l b HR. rewrite (RC_hash Hc Hcomp Hd HR). eauto.
    - refine (read _ _ _ _ _ Hm). intros v l b HR. rewrite (to_vec_lawful Hc Hcomp Hai Hd Hfd HR). eauto.
    - refine (read _ _ _ _ _ Hm). intros v l b HR. destruct (left_all Hc Hcomp Hai Hd Hfd HR) as [_ G2].
      rewrite (m_iter_ok Hc Hcomp Hai Hd Hfd HR calls G2). eauto.
    - refine (read _ _ _ _ _ Hm). eauto.
    - refine (read _ _ _ _ _ Hm). eauto.
  Qed.

  Lemma survive_sim n k : plain_survivor c E k -> forall seen p sp, inv (c := c) (E := E) p sp ->
    explained E k n seen sp (m_survive c E n k seen p).
  Proof.
    intros Hk. induction n as [|n IH]; intros seen p sp H; cbn [m_survive]; [constructor|].
    destruct (k seen) as [o|] eqn:Ho; [|constructor; exact Ho].
    destruct (plain_sim Hs Hroomy H (Hk _ _ Ho)) as [[p' [E1 H']]|[E1|E1]].
    - rewrite E1. destruct (v_step E sp o) as [x sp'] eqn:Ev. cbn [fst snd] in *. eapply explained_call; [exact Ho|exact Ev|]. apply IH. exact H'.
    - destruct (m_step c E p o) as [r p'] eqn:Em. cbn in E1. subst r.
      destruct (cap_step H (Hk _ _ Ho) Em) as [sp' [Hl H']]. eapply explained_fail; [exact Ho|exact Hl|]. apply IH. exact H'.
    - destruct (m_step c E p o) as [r p']. cbn in E1. subst r. constructor.
  Qed.
End Survive.

Section TameSurvive.
  Context {T : Type} {c : cfg} {E : enumlike T}.
  Hypothesis Hc : cfg_ok c.
  Hypothesis Hroomy : roomy c.
  Hypothesis Hcomp : compiles c E = true.
  Lemma survive_safe n k : tame_survivor c E k -> forall seen p, Forall (valid c E) p -> ~ In MUB (m_survive c E n k seen p).
  Proof.
    intros Hk. induction n as [|n IH]; intros seen p Hp; cbn [m_survive]; [intros []|].
    destruct (k seen) as [o|] eqn:Ho; [|intros []].
    destruct (any_steps Hc Hcomp (roomy_isize Hc Hcomp Hroomy) Hp (tame_safe Hc Hroomy Hcomp Hp (Hk _ _ Ho))) as [H1 H2].
    destruct (m_step c E p o) as [[x| | |] p']; cbn [fst snd] in *; cbn [In]; try (intros [X|[]]; congruence).
    - intros [X|X]; [discriminate|]. exact (IH _ _ (H2 ltac:(discriminate)) X).
    - intros [X|X]; [discriminate|]. exact (IH _ _ (H2 ltac:(discriminate)) X).
  Qed.
End TameSurvive.
