(** MemFacts2.v -- lack of memory, continued: fills, append, whole programs. *)
From Verif Require Export MemFacts.
From Coq Require Import ZifyBool ZifyNat ZifyN.
Open Scope N_scope.
Set Implicit Arguments.
Unset Strict Implicit.

Lemma fits_fst S R A (Q I : S -> Prop) (J K : R -> Prop) (m : M S A) s : fits Q I m (fst s) ->
  fits (fun s => Q (fst s) /\ K (snd s)) (fun s => I (fst s) /\ J (snd s)) (on_fst m) s.
Proof. intros H [HQ HK]. destruct (H HQ) as (H1 & H2 & H3). unfold on_fst. destruct (m (fst s)) as [o s1]. cbn in *. tauto. Qed.
Lemma fits_snd S R A (Q I : S -> Prop) (J K : R -> Prop) (m : M R A) s : fits K J m (snd s) ->
  fits (fun s => Q (fst s) /\ K (snd s)) (fun s => I (fst s) /\ J (snd s)) (on_snd m) s.
Proof. intros H [HQ HK]. destruct (H HK) as (H1 & H2 & H3). unfold on_snd. destruct (m (snd s)) as [o s1]. cbn in *. tauto. Qed.

  Lemma div_add_le a b p : 1 <= p -> (a + b) / p <= a / p + b / p + 1.
  Proof.
    intros Hp. pose proof (N.div_mod a p). pose proof (N.mod_lt a p). pose proof (N.div_mod b p). pose proof (N.mod_lt b p).
    apply N.lt_succ_r, N.div_lt_upper_bound; [lia|]. rewrite N.mul_succ_r, !N.mul_add_distr_l. lia.
  Qed.
  Lemma sq_ge a : a <= a * a. Proof. destruct (N.eq_dec a 0) as [->|]; [lia|]. rewrite <- (N.mul_1_l a) at 1. apply N.mul_le_mono_r. lia. Qed.
  Lemma fill_arith p l k m : 1 <= p -> l / p + 2 + k / p * (k / p) <= m -> 4 * p < k ->
    let L := l / p + 1 in let f := p - l mod p in let cb := (k - f) / p in let la := k - (f + cb * p) in
    l + f = p * L /\ p * L < p * m /\ f <= k /\ f + cb * p <= k /\ la < p /\ p * L + cb * p + la < p * m /\ cb * p <= p * m /\ f + cb * p <= p * m /\
    p * L + cb * p <= p * m /\ L + (cb + 1) <= m /\ L + cb * cb <= m.
  Proof.
    intros Hp H Hk L f cb la.
    pose proof (N.div_mod l p ltac:(lia)) as D1. pose proof (N.mod_lt l p ltac:(lia)) as M1.
    assert (Hf : f <= p) by (unfold f; apply N.le_sub_l).
    assert (HL : l + f = p * L). { unfold f, L. rewrite N.mul_add_distr_l. clear - D1 M1. revert D1 M1. generalize (p * (l / p)) (l mod p). intros; lia. }
    clear D1 M1. assert (HLm : L + 1 + k / p * (k / p) <= m) by (unfold L; revert H; generalize (k / p * (k / p)) (l / p); clear; intros; lia).
    clearbody L f. clear H.
    pose proof (N.div_mod (k - f) p ltac:(lia)) as D2. pose proof (N.mod_lt (k - f) p ltac:(lia)) as M2. fold cb in D2.
    assert (Hcb : cb <= k / p) by (apply N.div_le_mono; lia). clearbody cb.
    revert D2 M2. generalize ((k - f) mod p). intros r D2 M2.
    pose proof (@sq_ge (k / p)) as Hsq. assert (Hsq2 : cb * cb <= k / p * (k / p)) by (apply N.mul_le_mono; exact Hcb).
    revert Hcb Hsq Hsq2 HLm. generalize (k / p). intros q. generalize (q * q) (cb * cb). intros qq cc Hcb Hsq Hsq2 HLm.
    assert (Hla : la = r) by (unfold la; rewrite (N.mul_comm cb p); revert D2; generalize (p * cb); intros; lia). clearbody la.
    assert (X : p * L + p * cb + p <= p * m).
    { rewrite <- N.mul_add_distr_l, <- N.mul_succ_r. apply N.mul_le_mono_l. lia. }
    rewrite (N.mul_comm cb p). revert X D2 HL. generalize (p * L) (p * cb) (p * m). intros. repeat split; lia.
  Qed.

Lemma blocks_div T (c : cfg) (E : enumlike T) (Hc : cfg_ok c) (Ha : admits c E) k : blocks c E k <= k / EPB c E + 1.
Proof.
  destruct (P_le_W Hc Ha) as [HP _]. unfold blocks. pose proof (@div_add_le k (EPB c E - 1) _ HP) as H.
  rewrite (N.div_small (EPB c E - 1) (EPB c E)) in H by lia. lia.
Qed.
Section Grow2.
  Context {T : Type} (c : cfg) (E : enumlike T) (n : N) (room : N -> Prop).
  Hypothesis Hc : cfg_ok c.
  Hypothesis Hroomy : EPB c E * n + EPB c E <= usize_max c.
  Hypothesis Hcomp : admits c E.
  Hypothesis Hg : serves c n room.
  Local Notation P := (EPB c E).
  Local Notation I := (small_st n).
  Local Notation Q := (capok room).
  Let HP := P_le_W Hc Hcomp.

  Lemma fed_fill_pattern : forall f b i, fed (fill_pattern c f b i).
  Proof.
    induction f as [|f IH]; intros b i; [exact Logic.I|]. cbn. destruct (_ <? _); [|exact Logic.I]. apply fed_bind; [apply fed_shl|]. intros. apply IH.
  Qed.
  Definition fill_body (count x : N) (_ : N) : M ev unit :=
    l <- reads (fun v => Ret (vlen (storage v))) ;; m <- lift (uadd c l count) ;; on_storage (vec_resize c m x).
  Lemma fits_fill_loop count x : forall k i v, vlen (storage v) + N.of_nat k * count <= n ->
    fits Q I (for_range k i (fill_body count x)) v /\ forall u v', for_range k i (fill_body count x) v = (Ret u, v') -> num v' = num v.
  Proof.
    induction k as [|k IH]; intros i v H; cbn [for_range].
    - split; [apply fits_ret|]. intros u v' G. injection G as _ <-. reflexivity.
    - assert (E1 : uadd c (vlen (storage v)) count = Ret (vlen (storage v) + count)).
      { apply uadd_exact. assert (n <= P * n) by (rewrite <- (N.mul_1_l n) at 1; apply N.mul_le_mono_r; apply HP). assert (count <= N.of_nat (S k) * count) by (rewrite Nat2N.inj_succ, N.mul_succ_l; apply N.le_add_l). clear HP. lia. }
      assert (Eb : fill_body count x i v = on_storage (vec_resize c (vlen (storage v) + count) x) v).
      { unfold fill_body, bind, reads, lift. rewrite E1. reflexivity. }
      split.
      + apply fits_bind.
        * unfold fits. rewrite Eb. apply (fits_resize Hg). clear HP Hroomy. nia.
        * intros u v1 G. rewrite Eb in G. apply IH. apply resize_vlen in G. clear HP Hroomy. nia.
      + intros u v' G. unfold bind in G. rewrite Eb in G.
        pose proof (num_on_storage (vec_resize c (vlen (storage v) + count) x) v) as Hn.
        destruct (on_storage _ v) as [[u1| | |] v1] eqn:E2; try discriminate. apply resize_vlen in E2. cbn in Hn. rewrite <- Hn.
        eapply IH; [|exact G]. clear HP Hroomy. nia.
  Qed.

  Lemma blocks_mul L : blocks_for_elements c E (P * L) <= L.
  Proof.
    unfold blocks_for_elements. transitivity ((P * L + (P - 1)) / P); [apply N.div_le_mono; [destruct HP; lia|apply N.le_min_l]|].
    apply N.lt_succ_r, N.div_lt_upper_bound; destruct HP; lia.
  Qed.
  Lemma fits_more k v : vlen (storage v) + k <= n -> fits Q I (on_storage (vec_reserve c k)) v /\
    forall u v', on_storage (vec_reserve c k) v = (Ret u, v') -> num v' = num v /\ vlen (storage v') = vlen (storage v).
  Proof.
    intros H. split.
    - intros HQ. unfold on_storage, vec_reserve. destruct (@ensure_fed c n room Hg (vlen (storage v) + k) (storage v) HQ H) as [cap' [-> HQ']].
      split; [exact Logic.I|]. split; [exact HQ'|auto].
    - intros u v'. unfold on_storage, vec_reserve, vec_ensure. destruct (_ <=? _); [intros G; injection G as _ <-; auto|].
      cbv zeta. destruct (_ <? _); [discriminate|]. destruct (_ <? _); [discriminate|]. intros G. injection G as _ <-. auto.
  Qed.
  Lemma fits_fill x k v : fill_demand c E (len v) k <= n -> fits Q I (extend_with_value c E x k) v.
  Proof.
    pose proof (proj1 HP) as HP1. unfold fill_demand. intros H. unfold extend_with_value. revert H.
    destruct (N.leb_spec k (4 * P)) as [Hk|Hk]; intros H.
    - apply (fits_extend Hc Hroomy Hcomp Hg). cbn. rewrite lenN_repeat, N2Nat.id, N.max_id. apply (div_n n Hc Hcomp). exact H.
    - destruct (@fill_arith P (len v) k n HP1 H Hk) as [A1 [A2 [A3 [A4 [A5 [A6 [A7 [A8 [A9 [A10 A11]]]]]]]]]].
      clear H Hk. assert (HU : forall q, q <= P * n -> q <= usize_max c) by (intros q Hq; pose proof (n_usize Hc Hroomy Hcomp Hg (k := q)); lia).
      apply fits_bind; [apply fits_reads; exact Logic.I|]. intros sl v0 E0. injection E0 as <- <-. cbv zeta.
      set (L := len v / P + 1) in *. set (f := P - len v mod P) in *. set (cb := (k - f) / P) in *. set (last := k - (f + cb * P)) in *.
      assert (Hx : len v + N.max (lower (exact_iter (repeat x (N.to_nat f)))) (lenN (items (exact_iter (repeat x (N.to_nat f))))) = P * L).
      { cbn. rewrite lenN_repeat, N2Nat.id, N.max_id. exact A1. }
      apply fits_bind; [apply (fits_extend Hc Hroomy Hcomp Hg); rewrite Hx; exact A2|].
      intros [] v1 E1. apply (extend_num Hc Hroomy Hcomp Hg) in E1; [|rewrite Hx; exact A2].
      assert (N1 : num v1 = P * L) by (rewrite E1; exact Hx).
      rewrite usub_exact by exact A3. apply fits_bind; [apply fits_lift; exact Logic.I|]. intros ce v2 E2. injection E2 as <- <-. fold cb.
      rewrite umul_exact by (apply HU; exact A7). apply fits_bind; [apply fits_lift; exact Logic.I|]. intros mid v3 E3. injection E3 as <- <-.
      rewrite uadd_exact by (apply HU; exact A8). apply fits_bind; [apply fits_lift; exact Logic.I|]. intros s v4 E4. injection E4 as <- <-.
      rewrite usub_exact by exact A4. apply fits_bind; [apply fits_lift; exact Logic.I|]. intros la v5 E5. injection E5 as <- <-. fold last.
      apply fits_bind; [apply fits_lift, fed_fill_pattern|]. intros bv v6 E6. unfold lift in E6. injection E6 as E6 <-.
      apply fits_bind; [apply fits_reads; exact Logic.I|]. intros ol v7 E7. injection E7 as <- <-.
      apply fits_bind; [apply tame_fix|]. intros u v8 E8. unfold fix_storage in E8. injection E8 as _ E8.
      assert (N8 : num v8 = P * L) by (subst v8; exact N1).
      assert (V8 : vlen (storage v8) <= L).
      { subst v8. cbn. unfold vlen, lenN. cbn. rewrite firstn_length. unfold len. rewrite N1.
        rewrite Nat2N.inj_min, N2Nat.id. etransitivity; [apply N.le_min_l|]. apply blocks_mul. }
      set (extra := if 0 <? last then 1 else 0). assert (Hextra : extra <= 1) by (unfold extra; destruct (0 <? last); discriminate).
      assert (Hneed : vlen (storage v8) + (cb + extra) <= n).
      { etransitivity; [|exact A10]. apply N.add_le_mono; [exact V8|]. apply N.add_le_mono_l. exact Hextra. }
      destruct (fits_more Hneed) as [R1 R2]. apply fits_bind; [exact R1|]. intros u9 v9 E9. apply R2 in E9. destruct E9 as [N9 V9].
      change (fill_blocks c cb bv) with (for_range (N.to_nat cb) 0 (fill_body cb bv)).
      destruct (@fits_fill_loop cb bv (N.to_nat cb) 0 v9) as [F1 F2].
      { rewrite V9, N2Nat.id. etransitivity; [|exact A11]. apply N.add_le_mono_r. exact V8. }
      apply fits_bind; [exact F1|]. intros u10 v10 E10. apply F2 in E10. cbn in E10.
      apply fits_bind; [apply fits_lift; exact Logic.I|]. intros m11 v11 E11. injection E11 as <- <-.
      unfold len. rewrite N1. rewrite uadd_exact by (apply HU; exact A9). apply fits_bind; [apply fits_lift; exact Logic.I|]. intros m12 v12 E12. injection E12 as <- <-.
      apply fits_bind; [apply tame_set_len|]. intros u13 v13 E13. injection E13 as _ <-.
      apply (fits_extend Hc Hroomy Hcomp Hg). cbn. rewrite lenN_repeat, N2Nat.id, N.max_id. exact A6.
  Qed.
  Lemma fits_resize_elems k x v : (if k <=? len v then 0 else fill_demand c E (len v) (k - len v)) <= n -> fits Q I (resize c E k x) v.
  Proof.
    intros H. unfold resize. apply fits_bind; [apply fits_reads; exact Logic.I|]. intros l v0 E0. injection E0 as <- <-.
    destruct (N.ltb_spec (len v) k) as [Hk|Hk]; [|apply tame_truncate]. rewrite (proj2 (N.leb_gt _ _)) in H by exact Hk.
    rewrite usub_exact by lia. apply fits_bind; [apply fits_lift; exact Logic.I|]. intros d v1 E1. injection E1 as <- <-. apply fits_fill. exact H.
  Qed.
  Lemma fits_insert i x v : len v < P * n -> fits Q I (insert c E i x) v.
  Proof.
    intros H. unfold insert. apply fits_bind; [apply (fits_push Hc Hroomy Hcomp Hg); exact H|]. intros u v1 _.
    apply fits_bind; [apply fits_reads; exact Logic.I|]. intros l v2 _. cbv zeta.
    apply fits_bind.
    { destruct (_ <? _); [|apply fits_ret]. apply fits_bind; [apply fits_lift, fed_usub|]. intros l0 v3 _.
      apply fits_bind; [apply fits_lift, fed_uadd|]. intros l1 v4 _. apply tame_insert_slow. }
    intros r v3 _. apply fits_bind; [apply fits_reads; exact Logic.I|]. intros l' v4 _.
    destruct (_ <? _); [|apply fits_ret]. apply fits_bind; [apply fits_lift, fed_usub|]. intros l2 v5 _. apply tame_insert_blocks.
  Qed.
  (** building a vector *)
  Definition makes (o : outcome ev) : Prop := fed o /\ forall v, o = Ret v -> Q v /\ I v.
  Lemma makes_build A (m : M ev A) : fits Q I m (ev_new c) -> makes (build c m).
  Proof.
    intros H. destruct (H (sv_new Hg)) as (H1 & H2 & H3). unfold makes, build. assert (H0 : I (ev_new c)) by (unfold small_st, vlen; cbn; lia).
    destruct (m (ev_new c)) as [[a|k| |] v]; cbn in *; (split; [exact H1|]); intros w G; try discriminate. injection G as <-. auto.
  Qed.
  Lemma vlen_new : vlen (storage (ev_new c)) = 0. Proof. reflexivity. Qed.
  Lemma blocks_le k : blocks_for_elements c E k <= blocks c E k.
  Proof. unfold blocks_for_elements, blocks. apply N.div_le_mono; [destruct HP; lia|apply N.le_min_l]. Qed.
  Lemma makes_capacity k : blocks c E k <= n -> makes (with_capacity c E k).
  Proof.
    intros H. unfold makes, with_capacity, vec_with_capacity. pose proof (@blocks_le k).
    destruct (@ensure_fed c n room Hg (blocks_for_elements c E k) (vec_new c)) as [cap' [-> HQ]]; [exact (sv_new Hg)|lia|]. cbn. split; [exact Logic.I|].
    intros v G. injection G as <-. split; [exact HQ|]. unfold small_st, vlen. cbn. lia.
  Qed.
  Lemma makes_clone v : I v -> makes (clone c v).
  Proof.
    unfold makes, clone, vec_clone, vec_extend_from, small_st. intros H.
    destruct (@ensure_fed c n room Hg (vlen (vec_new c) + lenN (data (storage v))) (vec_new c)) as [cap' [-> HQ]]; [exact (sv_new Hg)|exact H|]. cbn. split; [exact Logic.I|].
    intros w G. injection G as <-. split; [exact HQ|exact H].
  Qed.
  Local Notation I2 := (fun s : ev * ev => I (fst s) /\ I (snd s)).
  Local Notation Q2 := (fun s : ev * ev => Q (fst s) /\ Q (snd s)).
  Lemma fits_append v w : (if len v mod P =? 0 then blocks c E (len v + len w) else (len v + len w) / P + 1) <= n -> fits Q2 I2 (append c E) (v, w).
  Proof.
    intros H. unfold append. apply fits_bind; [apply fits_reads; exact Logic.I|]. intros ol s0 E0. injection E0 as <- <-.
    apply fits_bind; [apply fits_reads; exact Logic.I|]. intros sl s0 E0. injection E0 as <- <-. cbn [fst snd].
    revert H. destruct (N.eqb_spec (len v mod P) 0) as [Hm|Hm]; intros H.
    - apply fits_bind; [apply fits_fst, tame_fix|]. intros u1 s1 E1. injection E1 as _ <-.
      apply fits_bind; [apply fits_snd, tame_fix|]. intros u2 s2 E2. injection E2 as _ <-. cbn [fst snd].
      apply fits_bind; [apply fits_reads; exact Logic.I|]. intros od s3 E3. injection E3 as <- <-. cbn [fst snd storage data].
      apply fits_bind.
      { apply fits_fst. intros HQ. unfold on_storage, vec_extend_from. cbn [fst snd storage data].
        pose proof (@blocks_le (len v)) as H1. pose proof (@blocks_le (len w)) as H2.
        assert (H3 : blocks c E (len v + len w) = len v / P + blocks c E (len w)).
        { unfold blocks. pose proof (N.div_mod' (len v) P) as Q. rewrite Hm, N.add_0_r in Q. rewrite Q at 1. rewrite N.mul_comm.
          rewrite <- N.add_assoc, N.add_comm, N.div_add by (destruct HP; lia). apply N.add_comm. }
        assert (H4 : blocks c E (len v) <= len v / P).
        { unfold blocks. pose proof (N.div_mod' (len v) P) as Q. rewrite Hm, N.add_0_r in Q. rewrite Q at 1. rewrite N.add_comm, N.mul_comm, N.div_add by (destruct HP; lia).
          rewrite N.div_small by (destruct HP; lia). apply N.le_refl. }
        assert (L1 : vlen (vec_truncate (blocks_for_elements c E (len v)) (storage v)) + lenN (data (vec_truncate (blocks_for_elements c E (len w)) (storage w))) <= n).
        { rewrite H3 in H. unfold vlen, vec_truncate, lenN. cbn. rewrite !firstn_length. clear HP Hroomy. lia. }
        match goal with |- context [vec_ensure c ?k ?s] => destruct (@ensure_fed c n room Hg k s HQ L1) as [cap' [-> HQ']] end.
        cbn. split; [exact Logic.I|]. split; [exact HQ'|]. intros _. unfold small_st, vlen in *. cbn in *. rewrite lenN_app. exact L1. }
      intros u4 s4 _. apply fits_bind.
      { destruct (small c).
        - apply fits_snd, tame_truncate.
        - apply fits_snd. intros HQ. split; [exact Logic.I|]. split; [exact HQ|]. intros _. unfold small_st, vlen. cbn. lia. }
      intros u5 s5 _. apply fits_bind; [apply fits_reads, fed_uadd|]. intros m s6 _. apply fits_fst, tame_set_len.
    - apply fits_bind.
      { apply fits_fst. apply (fits_reserve Hc Hroomy Hcomp Hg). apply (div_n n Hc Hcomp). cbn [fst]. exact H. }
      intros u1 s1 _. apply fits_bind; [apply fits_lift, fed_uadd|]. intros m s2 _.
      apply fits_bind; [apply fits_fst, tame_set_len|]. intros u3 s3 _.
      apply fits_bind.
      { apply (@tame_for _ Q2 I2). intros j. apply tame_bind; [intros s; apply fits_lift, fed_uadd|]. intros idx.
        apply tame_bind; [intros s; apply fits_reads, fed_raw|]. intros d s. apply fits_fst, tame_set_u. }
      intros u4 s4 _. apply fits_snd, tame_truncate.
  Qed.
  Definition split_body (at_ k : N) (v : ev) : M ev unit :=
    set_len k ;;; for_range (N.to_nat k) 0 (fun i => idx <- lift (uadd c at_ i) ;;
        d <- lift (get_raw_unchecked c E idx v) ;; set_raw_unchecked c E i d).
  Lemma split_eq at_ v : at_ <= len v -> split_off c E at_ v =
    match with_capacity c E (len v - at_) with
    | Ret w0 => match split_body at_ (len v - at_) v w0 with
                | (Ret _, w) => (Ret w, mkEv (storage v) at_)
                | (Panic k, _) => (Panic k, v) | (Abort, _) => (Abort, v) | (UB, _) => (UB, v)
                end
    | Panic k => (Panic k, v) | Abort => (Abort, v) | UB => (UB, v)
    end.
  Proof.
    intros H. unfold split_off. rewrite (proj2 (N.leb_le _ _)) by exact H.
    unfold bind at 1, reads at 1. rewrite usub_exact by exact H. unfold bind at 1, lift at 1.
    destruct (with_capacity c E (len v - at_)) as [w0|k| |]; try reflexivity.
    fold (split_body at_ (len v - at_) v). destruct (split_body at_ (len v - at_) v w0) as [[u|k| |] w]; reflexivity.
  Qed.
  Lemma fits_split at_ v : blocks c E (len v - at_) <= n -> fits Q I (split_off c E at_) v /\ forall w v', split_off c E at_ v = (Ret w, v') -> Q w /\ I w.
  Proof.
    intros H. unfold fits. destruct (N.le_gt_cases at_ (len v)) as [Ha|Ha].
    2:{ unfold split_off. rewrite (proj2 (N.leb_gt _ _)) by exact Ha. split; [intros HQ; split; [exact Logic.I|auto]|discriminate]. }
    rewrite (split_eq Ha). pose proof (makes_capacity H) as [M1 M2].
    assert (Hm : tame Q I (split_body at_ (len v - at_) v)).
    { unfold split_body. apply tame_bind; [apply tame_set_len|]. intros _. apply tame_for. intros j. apply tame_bind; [apply tame_lift, fed_uadd|]. intros idx.
      apply tame_bind; [apply tame_lift, fed_raw|]. intros d. apply tame_set_u. }
    destruct (with_capacity c E (len v - at_)) as [w0|k| |]; [|split; [intros HQ; split; [exact M1|auto]|discriminate]..].
    specialize (M2 w0 eq_refl). destruct M2 as [M2 M3]. destruct (Hm w0 M2) as (H1 & H2 & H3). specialize (H3 M3).
    destruct (split_body at_ (len v - at_) v w0) as [[u|k| |] w1]; cbn in H1, H2, H3 |- *; (split; [intros HQ; split; [exact H1|auto]|]); intros w v' G; try discriminate.
    injection G as <- _. auto.
  Qed.

  (** ** programs *)
  Definition fed_out (m : mout T) : Prop := match m with MCap | MAbort => False | _ => True end.
  Lemma fed_of A (k : A -> res T) o : fed o -> fed_out (of_outcome k o).
  Proof. destruct o as [a|[]| |]; cbn; auto. Qed.
  Local Notation QI := (fun v => Q v /\ I v).
  Definition stays (r : mout T * list ev) : Prop := fed_out (fst r) /\ Forall QI (snd r).
  Lemma Forall_nth_I p r v : Forall QI p -> nth_error p r = Some v -> QI v.
  Proof. intros H G. rewrite Forall_forall in H. apply H. exact (nth_error_In _ _ G). Qed.
  Lemma Forall_upd p : forall r v, Forall QI p -> QI v -> Forall QI (upd p r v).
  Proof. induction p as [|x p IH]; intros [|r] v H G; cbn; inversion H; subst; auto. Qed.
  Lemma stays_on A p r (m : M ev A) k : Forall QI p -> (forall v, nth_error p r = Some v -> fits Q I m v) -> stays (m_on p r m k).
  Proof.
    intros Hp H. unfold m_on. destruct (nth_error p r) as [v|] eqn:Ev; [|split; [exact Logic.I|exact Hp]].
    destruct (Forall_nth_I Hp Ev) as [HQ HI]. destruct (H v eq_refl HQ) as (H1 & H2 & H3). destruct (m v) as [o v']. cbn in *.
    split; [apply fed_of; exact H1|]. apply Forall_upd; [exact Hp|]. auto.
  Qed.
  Lemma stays_read A p r (f : ev -> outcome A) k : Forall QI p -> (forall v, fed (f v)) -> stays (m_read p r f k).
  Proof.
    intros Hp H. unfold m_read. destruct (nth_error p r) as [v|]; (split; [|exact Hp]); [apply fed_of, H|exact Logic.I].
  Qed.
  Lemma stays_new p o : Forall QI p -> makes o -> stays (@m_new T p o).
  Proof.
    intros Hp [H1 H2]. unfold m_new. destruct o as [v|k| |]; try contradiction; cbn.
    - split; [exact Logic.I|]. apply Forall_app. split; [exact Hp|]. constructor; [apply H2; reflexivity|constructor].
    - split; [|exact Hp]. apply (@fed_of ev (fun _ => RUnit) (Panic k)). exact H1.
    - split; [exact Logic.I|exact Hp].
  Qed.

  Lemma lens_reg p r v : nth_error p r = Some v -> len v = reg (map len p) 0 r.
  Proof. intros H. unfold reg. symmetry. apply nth_error_nth. apply map_nth_error. exact H. Qed.

  Lemma step_fed p o : Forall QI p -> demand c E (map len p) o <= n -> stays (m_step c E p o).
  Proof.
    intros Hp Hd. pose proof (fun r v => @lens_reg p r v) as Hr.
    assert (D : forall k, k / P + 1 <= n -> k < P * n) by (intros k; apply (div_n n Hc Hcomp)).
    destruct o as [|k|x k|l0|it|r|r x|r|r i x|r i|r a b0|r i|r k|r|r k x|r i|r i x|r k|r|r it|r r2|r at_|r f|r f|r x|r x|r r2|r|r|r calls|r|r];
      cbn [m_step demand] in *.
    - apply stays_new; [exact Hp|]. split; [exact Logic.I|]. intros v G. injection G as <-. split; [exact (sv_new Hg)|]. unfold small_st. rewrite vlen_new. lia.
    - apply stays_new; [exact Hp|]. apply makes_capacity. exact Hd.
    - apply stays_new; [exact Hp|]. apply makes_build. apply fits_fill. exact Hd.
    - apply stays_new; [exact Hp|]. apply makes_build. apply (fits_extend Hc Hroomy Hcomp Hg). cbn. rewrite N.max_id. apply D. exact Hd.
    - apply stays_new; [exact Hp|]. apply makes_build. apply (fits_extend Hc Hroomy Hcomp Hg). apply D. exact Hd.
    - destruct (nth_error p r) as [v|] eqn:Ev; [|split; [exact Logic.I|exact Hp]]. apply stays_new; [exact Hp|]. apply makes_clone. exact (proj2 (Forall_nth_I Hp Ev)).
    - apply stays_on; [exact Hp|]. intros v Ev. apply (fits_push Hc Hroomy Hcomp Hg). apply D. rewrite (Hr _ _ Ev). exact Hd.
    - apply stays_on; [exact Hp|]. intros v Ev. apply tame_pop.
    - apply stays_on; [exact Hp|]. intros v Ev. apply fits_insert. apply D. rewrite (Hr _ _ Ev). exact Hd.
    - apply stays_on; [exact Hp|]. intros v Ev. apply tame_remove.
    - apply stays_on; [exact Hp|]. intros v Ev. apply tame_swap.
    - apply stays_on; [exact Hp|]. intros v Ev. apply tame_swap_remove.
    - apply stays_on; [exact Hp|]. intros v Ev. apply tame_truncate.
    - apply stays_on; [exact Hp|]. intros v Ev. apply tame_truncate.
    - apply stays_on; [exact Hp|]. intros v Ev. apply fits_resize_elems. rewrite (Hr _ _ Ev). exact Hd.
    - apply stays_read; [exact Hp|]. intros v. apply fed_get.
    - apply stays_on; [exact Hp|]. intros v Ev. apply tame_set.
    - apply stays_on; [exact Hp|]. intros v Ev. apply (fits_reserve Hc Hroomy Hcomp Hg). apply D. rewrite (Hr _ _ Ev). exact Hd.
    - apply stays_on; [exact Hp|]. intros v Ev. apply tame_shrink. exact (sv_shrink Hg).
    - apply stays_on; [exact Hp|]. intros v Ev. apply (fits_extend Hc Hroomy Hcomp Hg). apply D. rewrite (Hr _ _ Ev). exact Hd.
    - destruct (nth_error p r) as [v|] eqn:Ev; [|split; [exact Logic.I|exact Hp]].
      destruct (nth_error p r2) as [w|] eqn:Ew; [|split; [exact Logic.I|exact Hp]].
      destruct (Nat.eqb r r2); [split; [exact Logic.I|exact Hp]|].
      destruct (Forall_nth_I Hp Ev) as [Qv Iv]. destruct (Forall_nth_I Hp Ew) as [Qw Iw].
      destruct (@fits_append v w) as (H1 & [Q1 Q2] & H2); [rewrite (Hr _ _ Ev), (Hr _ _ Ew); exact Hd|split; assumption|].
      destruct (append c E (v, w)) as [o s]. cbn in H1, Q1, Q2, H2 |- *. split; [apply fed_of; exact H1|].
      destruct H2 as [G1 G2]; [split; assumption|].
      apply Forall_upd; [|split; assumption]. apply Forall_upd; [exact Hp|split; assumption].
    - destruct (nth_error p r) as [v|] eqn:Ev; [|split; [exact Logic.I|exact Hp]].
      destruct (@fits_split at_ v) as [H0 H3]; [rewrite (Hr _ _ Ev); exact Hd|].
      destruct (Forall_nth_I Hp Ev) as [Qv Iv]. destruct (H0 Qv) as (H1 & Q2 & H2). specialize (H2 Iv). pose proof (Forall_upd r Hp (conj Q2 H2)) as HF.
      destruct (split_off c E at_ v) as [o v']. cbn in H1, HF.
      destruct o as [w|k| |]; cbn; try contradiction.
      + split; [exact Logic.I|]. apply Forall_app. split; [exact HF|]. constructor; [exact (H3 _ _ eq_refl)|constructor].
      + split; [|exact HF]. apply (@fed_of ev (fun _ => RUnit) (Panic k)). exact H1.
      + split; [exact Logic.I|exact HF].
    - apply stays_on; [exact Hp|]. intros v Ev. apply tame_retain.
    - apply stays_on; [exact Hp|]. intros v Ev. apply tame_for_each.
    - apply stays_read; [exact Hp|]. intros v. apply fed_any.
    - apply stays_read; [exact Hp|]. intros v. apply fed_all.
    - destruct (nth_error p r) as [v|] eqn:Ev; [|split; [exact Logic.I|exact Hp]].
      destruct (nth_error p r2) as [w|] eqn:Ew; [|split; [exact Logic.I|exact Hp]]. split; [apply fed_of, fed_eq|exact Hp].
    - apply stays_read; [exact Hp|]. intros v. apply fed_hash.
    - apply stays_read; [exact Hp|]. intros v. apply fed_collect.
    - apply stays_read; [exact Hp|]. intros v. apply fed_m_iter.
    - apply stays_read; [exact Hp|]. intros v. exact Logic.I.
    - apply stays_read; [exact Hp|]. intros v. exact Logic.I.
  Qed.
End Grow2.

Lemma run_stays T (c : cfg) (E : enumlike T) n room (Hc : cfg_ok c) (Hroomy : EPB c E * n + EPB c E <= usize_max c) (Had : admits c E) (Hg : serves c n room) prog : forall p,
  Forall (fun v => capok room v /\ small_st n v) p -> demands c E p prog <= n ->
  Forall fed_out (fst (m_run c E p prog)) /\ Forall (fun v => capok room v /\ small_st n v) (snd (m_run c E p prog)).
Proof.
  induction prog as [|o prog IH]; intros p HI HD; cbn [m_run demands] in *; [split; [constructor|exact HI]|].
  destruct (@step_fed T c E n room Hc Hroomy Had Hg p o HI ltac:(lia)) as [F1 F2].
  destruct (m_step c E p o) as [r p']. cbn [fst snd] in *. specialize (IH p' F2 ltac:(lia)). destruct (m_run c E p' prog) as [rs p'']. destruct IH as [I1 I2].
  destruct r; cbn in *; auto.
Qed.

Section Prog.
  Context {T : Type} (c : cfg) (E : enumlike T) (n : N) (room : N -> Prop).
  Hypothesis Hs : setting c E.
  Hypothesis Hg : serves c n room.
  Hypothesis Hroomy : EPB c E * n + EPB c E <= usize_max c.
  Let Hc := s_ok Hs. Let Hcomp := s_comp Hs. Let Hai := s_alloc Hs. Let Hd := s_d Hs.
  Let Hfd := s_fd Hs.
  Lemma PR_lens p sp cl : @PR T c E p sp cl -> map len p = map lenN sp.
  Proof.
    intros [H1 [H2 H3]]. apply (nth_ext _ _ 0 0); rewrite !map_length; [exact H1|]. intros r Hr.
    destruct (nth_error p r) as [v|] eqn:Hv; [|apply nth_error_None in Hv; lia].
    destruct (nth_error_same_len H1 Hv) as [l Hl]. destruct (nth_error_same_len H2 Hv) as [b Hb].
    pose proof (rc_num (H3 _ _ _ _ Hv Hl Hb)) as H. rewrite lenN_map in H.
    rewrite (nth_error_nth _ _ 0 (map_nth_error len _ _ Hv)), (nth_error_nth _ _ 0 (map_nth_error lenN _ _ Hl)). exact H.
  Qed.
  Lemma run_fed prog : forall p sp cl, @PR T c E p sp cl -> Forall (fun v => capok room v /\ small_st n v) p -> ok_run c E sp cl prog = true ->
    (vec_demands c E sp prog <= n)%N -> fst (m_run c E p prog) = map (@MRes T) (fst (s_run (to_d E) sp prog)).
  Proof.
    induction prog as [|o prog IH]; intros p sp cl H HI Hok HD; cbn [m_run s_run ok_run vec_demands] in *; [reflexivity|].
    apply andb_true_iff in Hok. destruct Hok as [Hok1 Hok2].
    pose proof (step_sim Hc Hcomp Hai Hd Hfd H Hok1) as Hst.
    pose proof (proj1 (proj2 (proj2 Hs))) as Had. rewrite <- (PR_lens H) in HD.
    destruct (@step_fed T c E n _ Hc Hroomy Had Hg p o HI ltac:(lia)) as [F1 F2].
    destruct (m_step c E p o) as [r p']. destruct (s_step (to_d E) sp o) as [x sp']. cbn [snd fst] in *.
    destruct Hst as [[G1 G2]|[G|G]]; cbn [fst snd] in *; subst r; try contradiction.
    specialize (IH _ _ _ G2 F2 Hok2 ltac:(lia)). destruct (m_run c E p' prog) as [rs p'']. destruct (s_run (to_d E) sp' prog) as [xs sp''].
    cbn in *. congruence.
  Qed.
End Prog.
