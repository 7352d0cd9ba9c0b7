(** ShiftExact.v -- what insert and remove do on every vector: dirty unused bits, and
    elements as wide as a block. *)
From Verif Require Export ClaimFacts4 Storage.
From Coq Require Import ZifyBool ZifyNat ZifyN.
Open Scope N_scope.
Set Implicit Arguments.
Unset Strict Implicit.

Section Exact.
  Context {T : Type} {c : cfg} {E : enumlike T}.
  Local Notation B := (BITS E).
  Local Notation P := (EPB c E).
  Local Notation WF := (WF c E).
  Local Notation slotv := (slotv c E).
  Local Notation wastev := (wastev c E).
  Local Notation RC := (RC c E).

  Hypothesis Hc : cfg_ok c.
  Hypothesis Hcomp : compiles c E = true.
  Hypothesis Hd : forall x, to_d E x < 2 ^ B.

  Lemma waste_lt b : b < 2 ^ W c -> waste c E b < 2 ^ B.
  Proof.
    intros Hb. unfold waste. rewrite N.shiftr_div_pow2. apply N.div_lt_upper_bound; [apply N.pow_nonzero; lia|].
    rewrite <- N.pow_add_r. apply N.lt_le_trans with (2 ^ W c); [exact Hb|]. apply pow2_le.
    pose proof (W_split Hc Hcomp). pose proof (Wmod_lt Hc Hcomp). lia.
  Qed.

  Lemma remove_shift_exact b z : B < W c -> b < 2 ^ W c -> z < 2 ^ B ->
    exists b', remove_shift c E b z = Ret (b', slot E b 0) /\ b' < 2 ^ W c /\
      slot E b' (P - 1) = N.lor z (waste c E b) /\ forall j, j + 1 < P -> slot E b' j = slot E b (j + 1).
  Proof.
    intros HBW Hb Hz. pose proof (Ppos Hc Hcomp Hd) as HP. pose proof (BITS_range Hc Hcomp) as [HB1 _].
    pose proof (EPB_mul Hc Hcomp) as HPB. pose proof (waste_lt Hb) as Hwl.
    assert (HPB1 : P * B = (P - 1) * B + B) by (rewrite <- (N.mul_1_l B) at 3; rewrite <- N.mul_add_distr_r; f_equal; lia).
    unfold remove_shift. rewrite (shr_ok Hc Hcomp) by exact HBW. cbn [obind].
    rewrite (shl_ok Hc Hcomp) by (apply (slot_off_lt Hc Hcomp); lia). cbn [obind].
    rewrite (MASK_ones Hc Hcomp).
    set (b' := N.lor (N.shiftr b B) (N.shiftl z ((P - 1) * B) mod 2 ^ W c)).
    exists b'. split.
    { unfold slot. rewrite N.mul_0_l, N.shiftr_0_r. reflexivity. }
    assert (Hbit : forall m, N.testbit b' m =
              if m <? (P - 1) * B then N.testbit b (m + B)
              else N.testbit z (m - (P - 1) * B) || N.testbit b (m + B)).
    { intros m. unfold b'. rewrite N.lor_spec, testbit_mod_pow2, testbit_shiftl, testbit_shiftr.
      destruct (N.ltb_spec m ((P - 1) * B)) as [Hm|Hm].
      - rewrite (proj2 (N.leb_gt _ m)) by exact Hm. rewrite andb_false_r, orb_false_r. reflexivity.
      - rewrite (proj2 (N.leb_le _ m)) by exact Hm. rewrite orb_comm. f_equal. cbn [andb].
        destruct (N.ltb_spec m (W c)) as [HmW|HmW]; [reflexivity|].
        symmetry. apply (lt_pow2_high Hz). lia. }
    split; [apply lor_lt; [apply shiftr_lt; exact Hb|apply mod_pow2_lt]|]. split.
    - apply N.bits_inj; intros m. rewrite slot_testbit, Hbit, N.lor_spec.
      rewrite (proj2 (N.ltb_ge ((P - 1) * B + m) ((P - 1) * B))) by lia.
      destruct (N.ltb_spec m B) as [Hm|Hm]; cbn [andb].
      + f_equal; [f_equal; lia|]. unfold waste. rewrite testbit_shiftr. f_equal. lia.
      + rewrite (lt_pow2_high Hz Hm), (lt_pow2_high Hwl Hm). reflexivity.
    - intros j Hj. apply N.bits_inj; intros m. rewrite !slot_testbit, Hbit.
      destruct (N.ltb_spec m B) as [Hm|Hm]; cbn [andb]; [|reflexivity].
      rewrite (proj2 (N.ltb_lt _ _)) by nia. f_equal. lia.
  Qed.

  Lemma remove_blocks_exact n : B < W c -> forall ib prev v, WF v ->
    ib + N.of_nat n <= vlen (storage v) -> prev < 2 ^ B ->
    okr (fun _ v' => WF v' /\ num v' = num v /\
           forall k, slotv v' k =
             if (ib * P <=? k) && (k <? (ib + N.of_nat n) * P)
             then N.lor (if k + 1 =? (ib + N.of_nat n) * P then prev else slotv v (k + 1))
                        (if k mod P =? P - 1 then wastev v (k / P) else 0)
             else slotv v k)
        never (remove_blocks c E n ib prev v).
  Proof.
    intros HBW. pose proof (Ppos Hc Hcomp Hd) as HP.
    induction n as [|n IH]; intros ib prev v Hw Hi Hp; cbn [remove_blocks].
    - cbn. split; [exact Hw|split; [reflexivity|]]. intros k.
      destruct (N.leb_spec (ib * P) k); destruct (N.ltb_spec k ((ib + 0) * P)); cbn [andb]; try reflexivity; nia.
    - set (i := ib + N.of_nat n). assert (Hil : i < vlen (storage v)) by lia.
      destruct (nthN_lt_Some Hil) as [b Hb].
      pose proof (Forall_nthN (wf_blocks Hw) Hb) as Hbl. cbv beta in Hbl.
      eapply okr_reads. { unfold load. rewrite Hb. reflexivity. }
      assert (Hwb : wastev v i = waste c E b). { unfold EvFacts.wastev. rewrite Hb. reflexivity. }
      destruct (remove_shift_exact HBW Hbl Hp) as [b' [He [Hb' [Hs0 Hs]]]].
      eapply okr_lift; [exact He|]. cbn [fst snd]. unfold bind at 1.
      rewrite store_ok by exact Hil.
      eapply okr_mono; [apply IH|..].
      + apply (WF_set_block Hc Hcomp Hd); assumption.
      + rewrite vlen_set_block. lia.
      + apply slot_lt.
      + intros u v' [G1 [G3 G4]]. split; [exact G1|split; [exact G3|]].
        intros k. rewrite G4. clear IH G4. fold i.
        replace (ib + N.of_nat (S n)) with (i + 1) by (unfold i; lia).
        assert (Hibi : ib <= i) by (unfold i; lia).
        assert (HibP : ib * P <= i * P) by (apply N.mul_le_mono_r; exact Hibi).
        rewrite N.mul_add_distr_r, N.mul_1_l. clearbody i.
        assert (Hdiv : forall q, q / P = i <-> i * P <= q /\ q < i * P + P).
        { intros q. split.
          - intros <-. pose proof (N.div_mod q P ltac:(lia)). pose proof (N.mod_lt q P ltac:(lia)). lia.
          - intros [L1 L2]. symmetry. apply (N.div_unique q P i (q - i * P)); lia. }
        rewrite !(slotv_set_block Hc Hcomp Hd), (wastev_set_block Hc Hcomp Hd) by exact Hil.
        destruct (N.lt_ge_cases k (ib * P)) as [K1|K1].
        { rewrite (proj2 (N.leb_gt (ib * P) k)) by exact K1. cbn [andb].
          destruct (N.eqb_spec (k / P) i) as [Hx|]; [apply Hdiv in Hx; lia|reflexivity]. }
        rewrite (proj2 (N.leb_le (ib * P) k)) by exact K1. cbn [andb].
        destruct (N.lt_ge_cases k (i * P)) as [K2|K2].
        { rewrite (proj2 (N.ltb_lt k (i * P))) by exact K2.
          rewrite (proj2 (N.ltb_lt k (i * P + P))), (proj2 (N.eqb_neq (k + 1) (i * P + P))) by lia.
          destruct (N.eqb_spec (k / P) i) as [Hx|_]; [apply Hdiv in Hx; lia|]. f_equal.
          destruct (N.eqb_spec (k + 1) (i * P)) as [K3|K3].
          - rewrite K3. rewrite <- (slotv_block Hc Hcomp Hd (j := 0) Hb) by lia. f_equal. lia.
          - destruct (N.eqb_spec ((k + 1) / P) i) as [Hx|]; [apply Hdiv in Hx; lia|reflexivity]. }
        rewrite (proj2 (N.ltb_ge k (i * P))) by exact K2.
        destruct (N.lt_ge_cases k (i * P + P)) as [K3|K3].
        * rewrite (proj2 (N.ltb_lt k (i * P + P))) by exact K3.
          assert (Hki : k / P = i) by (apply Hdiv; lia). rewrite Hki, N.eqb_refl.
          assert (Hkm : k mod P = k - i * P).
          { pose proof (N.div_mod k P ltac:(lia)) as Hx. rewrite Hki in Hx. lia. }
          rewrite Hkm. destruct (N.eqb_spec (k + 1) (i * P + P)) as [K4|K4].
          -- replace (k - i * P) with (P - 1) by lia. rewrite N.eqb_refl, Hwb. exact Hs0.
          -- rewrite (proj2 (N.eqb_neq (k - i * P) (P - 1))) by lia. rewrite N.lor_0_r.
             rewrite Hs by lia. rewrite <- (slotv_block Hc Hcomp Hd (j := k - i * P + 1) Hb) by lia. f_equal. lia.
        * rewrite (proj2 (N.ltb_ge k (i * P + P))) by exact K3.
          destruct (N.eqb_spec (k / P) i) as [Hx|]; [apply Hdiv in Hx; lia|reflexivity].
      + intros k s [].
  Qed.

  Lemma remove_slow_waste n : forall i v, WF v -> i + N.of_nat n < P * vlen (storage v) ->
    okr (fun _ v' => forall w, wastev v' w = wastev v w) never (remove_slow c E n i v).
  Proof.
    induction n as [|n IH]; intros i v Hw Hi; cbn [remove_slow]; [cbn; reflexivity|].
    eapply okr_reads. { apply (get_raw_unchecked_spec Hc Hcomp). lia. }
    unfold bind at 1. rewrite (set_raw_unchecked_spec Hc Hcomp) by lia.
    eapply okr_mono; [apply IH|..].
    - apply (WF_set_at Hc Hcomp). exact Hw.
    - rewrite (vlen_set_at Hc Hcomp). lia.
    - intros u v' G w. cbv beta in G. rewrite G. apply (wastev_set_at Hc Hcomp); [apply (wf_blocks Hw)|apply (slotv_lt Hc Hcomp)].
    - intros k v' [].
  Qed.
  Lemma okr_and S A (Q1 Q2 : A -> S -> Prop) r : okr Q1 never r -> okr Q2 never r -> okr (fun a s => Q1 a s /\ Q2 a s) never r.
  Proof. destruct r as [[a|k| |] s]; cbn; auto. Qed.

  Definition damaged (index j : N) : bool := (j mod P =? P - 1) && (index / P <? j / P).

  Lemma RC_remove_exact cl v ds index d x : fixable c E (index + 1) -> B < W c -> RC cl v ds -> nthN ds index = Some d -> from_d E d = Some x ->
    okr (fun r v' => r = x /\ WF v' /\ num v' = lenN ds - 1 /\
           forall j e, nthN (removeN ds index) j = Some e ->
             slotv v' j = if damaged index j then N.lor e (wastev v (j / P)) else e)
        never (remove c E index v).
  Proof.
    intros Hfx HBW H Hdn Hx. unfold remove. pose proof (Ppos Hc Hcomp Hd) as HP.
    pose proof (RC_max Hc Hcomp Hd H) as Hsm. pose proof (EPB_le_W Hc Hcomp) as HPW.
    pose proof (nthN_Some_lt Hdn) as Hidx.
    eapply okr_reads. { rewrite (RC_get Hc Hcomp Hd _ H), Hdn. unfold from_discr. rewrite Hx. reflexivity. }
    eapply okr_reads. { unfold len. rewrite (rc_num H). apply (usub_ok Hc Hcomp). lia. }
    unfold block_index; cbn [fst].
    pose proof (N.div_mod index P ltac:(lia)) as Hdm. pose proof (N.mod_lt index P ltac:(lia)) as Hml.
    eapply okr_lift. { apply (umul_ok Hc Hcomp). apply (fixable_next Hc Hcomp Hd Hfx). }
    cbv zeta. set (bl := (1 + index / P) * P). set (sl := N.min (lenN ds - 1) bl).
    assert (Hbl : index < bl) by (unfold bl; lia).
    assert (Hblm : bl mod P = 0) by (unfold bl; apply N.mod_mul; lia).
    assert (Hblq : bl / P = 1 + index / P) by (unfold bl; apply N.div_mul; lia).
    eapply okr_bind_mono.
    { apply okr_and.
      - apply (remove_slow_ok Hc Hcomp Hd (n := N.to_nat (sl - index)) (i := index) H). unfold sl. lia.
      - apply (remove_slow_waste (n := N.to_nat (sl - index)) (i := index) (rc_wf H)).
        pose proof (RC_cover Hc Hcomp Hd H). unfold sl. lia. }
    2:{ intros k s []. }
    intros i v1 [[-> [ds1 [H1 [HL1 Hn1]]]] Hws].
    assert (Hsl1 : index <= sl /\ sl <= lenN ds - 1 /\ sl <= bl /\ (sl = lenN ds - 1 \/ sl = bl)) by (unfold sl; lia).
    replace (index + N.of_nat (N.to_nat (sl - index))) with sl in * by (clear - Hsl1; lia).
    clearbody sl bl. clear Hdm Hml Hsm HPW.
    eapply okr_reads. { unfold len. rewrite (rc_num H1), HL1. apply (usub_ok Hc Hcomp). lia. }
    assert (Hlast : lenN ds - 1 < lenN ds1) by lia.
    destruct (nthN_lt_Some Hlast) as [pr Hpr].
    eapply okr_reads. { apply (RC_get_raw_unchecked Hc Hcomp Hd H1 Hpr). }
    eapply okr_reads. { rewrite (rc_num H1), HL1. apply (usub_ok Hc Hcomp). lia. }
    unfold bind at 1, set_len. set (v2 := mkEv (storage v1) (lenN ds - 1)).
    eapply okr_reads; [reflexivity|]. change (len v2) with (lenN ds - 1).
    assert (H2 : RC cl v2 (firstn (N.to_nat (lenN ds - 1)) ds1)) by (apply (RC_set_len_le Hc Hcomp Hd H1); lia).
    assert (Hdam : forall k, damaged index k = (k mod P =? P - 1) && (bl <=? k)).
    { intros k. unfold damaged. f_equal. destruct (N.leb_spec bl k) as [L|L].
      - apply N.ltb_lt. pose proof (N.div_le_mono bl k P ltac:(lia) L). lia.
      - apply N.ltb_ge. assert (k / P < 1 + index / P); [|lia]. rewrite <- Hblq.
        pose proof (N.div_mod bl P ltac:(lia)) as X. rewrite Hblm in X. apply N.div_lt_upper_bound; lia. }
    destruct (N.ltb_spec sl (lenN ds - 1)) as [Hlt|Hge].
    - assert (Hsl : sl = bl) by (clear - Hsl1 Hlt; lia).
      clear Hsl1.
      apply okr_bind. eapply okr_lift. { apply (usub_ok Hc Hcomp). lia. }
      pose proof (RC_cover Hc Hcomp Hd H1) as Hcv. rewrite HL1 in Hcv.
      replace (lenN ds - 1 - 1) with (lenN ds - 2) by lia.
      assert (Hq : (lenN ds - 2) / P < vlen (storage v1)) by (apply (divP_lt Hc Hcomp); lia).
      assert (Hib : sl / P <= (lenN ds - 2) / P) by (apply N.div_le_mono; lia).
      pose proof (RC_lt2 Hc Hcomp Hd H1 Hpr) as Hprl.
      rewrite (castB Hc Hcomp) by exact Hprl.
      eapply okr_mono.
      { apply (remove_blocks_exact (n := N.to_nat ((lenN ds - 2) / P + 1 - sl / P)) HBW (ib := sl / P) (prev := pr) (v := v2)).
        - apply (rc_wf H2).
        - change (vlen (storage v2)) with (vlen (storage v1)). lia.
        - exact Hprl. }
      2:{ intros k s []. }
      intros u v' [G1 [G3 G4]]. cbn. split; [reflexivity|]. split; [exact G1|]. split; [exact G3|].
      intros k e Hk. pose proof (nthN_Some_lt Hk) as Hkl. rewrite lenN_removeN in Hkl by exact Hidx.
      rewrite nthN_removeN in Hk by exact Hidx.
      rewrite G4. rewrite Hsl, (div_mul_mod0 Hc Hcomp Hd Hblm).
      rewrite Hsl in Hib.
      replace (bl / P + N.of_nat (N.to_nat ((lenN ds - 2) / P + 1 - bl / P))) with ((lenN ds - 2) / P + 1) by lia.
      set (top := ((lenN ds - 2) / P + 1) * P).
      assert (Htop : lenN ds - 2 < top).
      { unfold top. pose proof (N.mul_succ_div_gt (lenN ds - 2) P ltac:(lia)). lia. }
      clearbody top. clear Hib Hq Hcv Hprl.
      rewrite (proj2 (N.ltb_lt k top)) by lia. rewrite andb_true_r, Hdam.
      change (EvFacts.slotv c E v2) with (EvFacts.slotv c E v1).
      change (EvFacts.wastev c E v2) with (EvFacts.wastev c E v1). rewrite Hws.
      destruct (N.leb_spec bl k) as [K1|K1].
      + rewrite andb_true_r. rewrite (proj2 (N.ltb_ge k index)) in Hk by lia.
        assert (Hk1 : nthN ds1 (k + 1) = Some e).
        { rewrite Hn1. rewrite (proj2 (N.ltb_ge (k + 1) sl)) by lia. rewrite andb_false_r. exact Hk. }
        assert (Hv : (if k + 1 =? top then pr else EvFacts.slotv c E v1 (k + 1)) = e).
        { destruct (N.eqb_spec (k + 1) top) as [K2|K2].
          - replace (lenN ds - 1) with (k + 1) in Hpr by lia. congruence.
          - apply (rc_slot H1 Hk1). }
        rewrite Hv. destruct (k mod P =? P - 1); [reflexivity|apply N.lor_0_r].
      + rewrite andb_false_r. apply (rc_slot H1). rewrite Hn1. destruct (N.ltb_spec k index) as [K2|K2].
        * rewrite (proj2 (N.leb_gt index k)) by exact K2. exact Hk.
        * rewrite (proj2 (N.leb_le index k)) by exact K2.
          rewrite (proj2 (N.ltb_lt k sl)) by (rewrite Hsl; exact K1). exact Hk.
    - rewrite bind_ret. cbn. split; [reflexivity|]. split; [apply (rc_wf H2)|]. split; [reflexivity|].
      intros k e Hk. pose proof (nthN_Some_lt Hk) as Hkl. rewrite lenN_removeN in Hkl by exact Hidx.
      rewrite nthN_removeN in Hk by exact Hidx.
      rewrite Hdam. rewrite (proj2 (N.leb_gt bl k)) by lia. rewrite andb_false_r.
      apply (rc_slot H1). rewrite Hn1. destruct (N.ltb_spec k index) as [K2|K2].
      + rewrite (proj2 (N.leb_gt index k)) by exact K2. exact Hk.
      + rewrite (proj2 (N.leb_le index k)), (proj2 (N.ltb_lt k sl)) by lia. exact Hk.
  Qed.
End Exact.
