(** ShiftWide.v -- insert and remove with elements as wide as a block, and the exact
    statements in terms of lists. *)
From Verif Require Export ShiftExact.
From Coq Require Import ZifyBool ZifyNat ZifyN.
Open Scope N_scope.
Set Implicit Arguments.
Unset Strict Implicit.

Section Wide.
  Context {T : Type} {c : cfg} {E : enumlike T}.
  Local Notation B := (BITS E).
  Local Notation P := (EPB c E).
  Local Notation WF := (WF c E).
  Local Notation slotv := (slotv c E).
  Local Notation RC := (RC c E).

  Hypothesis Hc : cfg_ok c.
  Hypothesis Hcomp : compiles c E = true.
  Hypothesis Hd : forall x, to_d E x < 2 ^ B.
  Hypothesis Hwide : W c <= B.

  Lemma wide_B : B = W c. Proof. pose proof (BITS_range Hc Hcomp). lia. Qed.
  Lemma wide_P : P = 1.
  Proof. unfold EPB. rewrite wide_B. apply N.div_same. pose proof (BITS_range Hc Hcomp). lia. Qed.
  Lemma wide_slotv v k b : nthN (data (storage v)) k = Some b -> b < 2 ^ W c -> slotv v k = b.
  Proof.
    intros Hb Hl. unfold EvFacts.slotv. rewrite wide_P, N.div_1_r, Hb, N.mod_1_r. unfold slot.
    rewrite N.mul_0_l, N.shiftr_0_r, wide_B, N.land_ones. apply N.mod_small. exact Hl.
  Qed.
  Lemma wide_slotv_set v w b k : w < vlen (storage v) -> b < 2 ^ W c -> slotv (set_block v w b) k = if k =? w then b else slotv v k.
  Proof.
    intros Hw Hb. rewrite (slotv_set_block Hc Hcomp Hd) by exact Hw. rewrite wide_P, N.div_1_r, N.mod_1_r.
    destruct (k =? w); [|reflexivity]. unfold slot. rewrite N.mul_0_l, N.shiftr_0_r, wide_B, N.land_ones. apply N.mod_small. exact Hb.
  Qed.
  Lemma wide_shr0 b : shr c b ((P - 1) * B) = Ret b.
  Proof. rewrite wide_P, N.sub_diag, N.mul_0_l. rewrite (shr_ok Hc Hcomp), N.shiftr_0_r; [reflexivity|]. pose proof (BITS_range Hc Hcomp). lia. Qed.
  Lemma wide_shl0 b : b < 2 ^ W c -> shl c b ((P - 1) * B) = Ret b.
  Proof.
    intros Hb. rewrite wide_P, N.sub_diag, N.mul_0_l. rewrite (shl_ok Hc Hcomp), N.shiftl_0_r; [rewrite N.mod_small by exact Hb; reflexivity|].
    pose proof (BITS_range Hc Hcomp). lia.
  Qed.
  Lemma wide_mask b : b < 2 ^ W c -> N.land b (MASK c E) = b.
  Proof. intros Hb. rewrite (MASK_ones Hc Hcomp), wide_B, N.land_ones. apply N.mod_small. exact Hb. Qed.
  Lemma wide_shlB b : b < 2 ^ W c -> shl c b B = if ovf c then Panic POverflow else Ret b.
  Proof.
    intros Hb. unfold shl. rewrite (proj2 (N.ltb_ge B (W c))) by exact Hwide. destruct (ovf c); [reflexivity|].
    rewrite wide_B, N.mod_same, N.shiftl_0_r, N.mod_small; [reflexivity|exact Hb|]. pose proof (BITS_range Hc Hcomp). lia.
  Qed.
  Lemma wide_shrB b : shr c b B = if ovf c then Panic POverflow else Ret b.
  Proof.
    unfold shr. rewrite (proj2 (N.ltb_ge B (W c))) by exact Hwide. destruct (ovf c); [reflexivity|].
    rewrite wide_B, N.mod_same, N.shiftr_0_r; [reflexivity|]. pose proof (BITS_range Hc Hcomp). lia.
  Qed.
  Lemma insert_shift_wide b z : b < 2 ^ W c -> insert_shift c E b z = if ovf c then Panic POverflow else Ret (N.lor b z, b).
  Proof.
    intros Hb. unfold insert_shift. rewrite wide_shr0. cbn [obind]. rewrite (wide_mask Hb), (wide_shlB Hb).
    destruct (ovf c); reflexivity.
  Qed.
  Lemma remove_shift_wide b z : b < 2 ^ W c -> z < 2 ^ W c ->
    remove_shift c E b z = if ovf c then Panic POverflow else Ret (N.lor b z, b).
  Proof.
    intros Hb Hz. unfold remove_shift. rewrite (wide_mask Hb), wide_shrB. destruct (ovf c); cbn [obind]; [reflexivity|].
    rewrite (wide_shl0 Hz). reflexivity.
  Qed.

  Lemma insert_blocks_debug n i prev v : ovf c = true -> WF v -> i < vlen (storage v) ->
    insert_blocks c E (S n) i prev v = (Panic POverflow, v).
  Proof.
    intros Ho Hw Hi. cbn [insert_blocks]. destruct (nthN_lt_Some Hi) as [b Hb].
    pose proof (Forall_nthN (wf_blocks Hw) Hb) as Hbl. cbv beta in Hbl.
    unfold bind, reads, load, lift. rewrite Hb, (insert_shift_wide prev Hbl), Ho. reflexivity.
  Qed.
  Lemma remove_blocks_debug n i prev v : ovf c = true -> WF v -> i + N.of_nat n < vlen (storage v) -> prev < 2 ^ W c ->
    remove_blocks c E (S n) i prev v = (Panic POverflow, v).
  Proof.
    intros Ho Hw Hi Hp. cbn [remove_blocks]. destruct (nthN_lt_Some Hi) as [b Hb].
    pose proof (Forall_nthN (wf_blocks Hw) Hb) as Hbl. cbv beta in Hbl.
    unfold bind, reads, load, lift. rewrite Hb, (remove_shift_wide Hbl Hp), Ho. reflexivity.
  Qed.
  Lemma insert_blocks_release n : ovf c = false -> forall i prev v, WF v -> i + N.of_nat n <= vlen (storage v) -> prev < 2 ^ W c ->
    okr (fun _ v' => WF v' /\ num v' = num v /\ forall k, slotv v' k =
           if (i <=? k) && (k <? i + N.of_nat n)
           then N.lor (slotv v k) (if k =? i then prev else slotv v (k - 1)) else slotv v k)
        never (insert_blocks c E n i prev v).
  Proof.
    intros Ho. induction n as [|n IH]; intros i prev v Hw Hi Hp; cbn [insert_blocks].
    - cbn. split; [exact Hw|]. split; [reflexivity|]. intros k.
      destruct (N.leb_spec i k), (N.ltb_spec k (i + 0)); cbn [andb]; try reflexivity; lia.
    - assert (Hil : i < vlen (storage v)) by lia. destruct (nthN_lt_Some Hil) as [b Hb].
      pose proof (Forall_nthN (wf_blocks Hw) Hb) as Hbl. cbv beta in Hbl.
      eapply okr_reads. { unfold load. rewrite Hb. reflexivity. }
      eapply okr_lift. { rewrite (insert_shift_wide prev Hbl), Ho. reflexivity. }
      cbn [fst snd]. unfold bind at 1. rewrite store_ok by exact Hil.
      assert (Hlor : N.lor b prev < 2 ^ W c) by (apply lor_lt; assumption).
      eapply okr_mono; [apply IH|..].
      + apply (WF_set_block Hc Hcomp Hd); assumption.
      + rewrite vlen_set_block. lia.
      + exact Hbl.
      + intros u v' [G1 [G2 G3]]. split; [exact G1|]. split; [exact G2|]. intros k. rewrite G3. clear IH G3.
        rewrite !(fun k => wide_slotv_set k Hil Hlor). pose proof (wide_slotv Hb Hbl) as Hsi.
        destruct (N.lt_trichotomy k i) as [K|[K|K]].
        * rewrite (proj2 (N.leb_gt (i + 1) k)), (proj2 (N.leb_gt i k)), (proj2 (N.eqb_neq k i)) by lia. reflexivity.
        * subst k. rewrite (proj2 (N.leb_gt (i + 1) i)), (proj2 (N.leb_le i i)), N.eqb_refl by lia. cbn [andb].
          rewrite (proj2 (N.ltb_lt i (i + N.of_nat (S n)))) by lia. rewrite Hsi. reflexivity.
        * rewrite (proj2 (N.leb_le (i + 1) k)), (proj2 (N.leb_le i k)), (proj2 (N.eqb_neq k i)) by lia. cbn [andb].
          replace (i + 1 + N.of_nat n) with (i + N.of_nat (S n)) by lia.
          destruct (k <? i + N.of_nat (S n)); [|reflexivity]. f_equal.
          destruct (N.eqb_spec k (i + 1)) as [->|Hne].
          -- replace (i + 1 - 1) with i by lia. symmetry. exact Hsi.
          -- rewrite (proj2 (N.eqb_neq (k - 1) i)) by lia. reflexivity.
      + intros k s [].
  Qed.
  Lemma remove_blocks_release n : ovf c = false -> forall i prev v, WF v -> i + N.of_nat n <= vlen (storage v) -> prev < 2 ^ W c ->
    okr (fun _ v' => WF v' /\ num v' = num v /\ forall k, slotv v' k =
           if (i <=? k) && (k <? i + N.of_nat n)
           then N.lor (slotv v k) (if k + 1 =? i + N.of_nat n then prev else slotv v (k + 1)) else slotv v k)
        never (remove_blocks c E n i prev v).
  Proof.
    intros Ho. induction n as [|n IH]; intros i prev v Hw Hi Hp; cbn [remove_blocks].
    - cbn. split; [exact Hw|]. split; [reflexivity|]. intros k.
      destruct (N.leb_spec i k), (N.ltb_spec k (i + 0)); cbn [andb]; try reflexivity; lia.
    - set (t := i + N.of_nat n). assert (Hil : t < vlen (storage v)) by (unfold t; lia). destruct (nthN_lt_Some Hil) as [b Hb].
      pose proof (Forall_nthN (wf_blocks Hw) Hb) as Hbl. cbv beta in Hbl.
      eapply okr_reads. { unfold load. rewrite Hb. reflexivity. }
      eapply okr_lift. { rewrite (remove_shift_wide Hbl Hp), Ho. reflexivity. }
      cbn [fst snd]. unfold bind at 1. rewrite store_ok by exact Hil.
      assert (Hlor : N.lor b prev < 2 ^ W c) by (apply lor_lt; assumption).
      eapply okr_mono; [apply IH|..].
      + apply (WF_set_block Hc Hcomp Hd); assumption.
      + rewrite vlen_set_block. lia.
      + exact Hbl.
      + intros u v' [G1 [G2 G3]]. split; [exact G1|]. split; [exact G2|]. intros k. rewrite G3. clear IH G3. fold t.
        replace (i + N.of_nat (S n)) with (t + 1) by (unfold t; lia).
        rewrite !(fun k => wide_slotv_set k Hil Hlor). pose proof (wide_slotv Hb Hbl) as Hst.
        assert (Hit : i <= t) by (unfold t; lia). clearbody t.
        destruct (N.lt_trichotomy k t) as [K|[K|K]].
        * rewrite (proj2 (N.ltb_lt k t)), (proj2 (N.ltb_lt k (t + 1))), (proj2 (N.eqb_neq k t)), (proj2 (N.eqb_neq (k + 1) (t + 1))) by lia.
          rewrite !andb_true_r. destruct (i <=? k); [|reflexivity]. f_equal.
          destruct (N.eqb_spec (k + 1) t) as [->|Hne]; [symmetry; exact Hst|reflexivity].
        * subst k. rewrite (proj2 (N.ltb_ge t t)), (proj2 (N.leb_le i t)), (proj2 (N.ltb_lt t (t + 1))), !N.eqb_refl by lia.
          cbn [andb]. rewrite Hst. reflexivity.
        * rewrite (proj2 (N.ltb_ge k t)), (proj2 (N.ltb_ge k (t + 1))), (proj2 (N.eqb_neq k t)) by lia. rewrite !andb_false_r. reflexivity.
      + intros k s [].
  Qed.

  (** ** whole operations *)
  Lemma RC_insert_wide cl v ds index x : RC cl v ds -> index <= lenN ds ->
    okr (fun _ v' => ovf c = false /\ WF v' /\ num v' = lenN ds + 1 /\
           forall k y z, nthN (ds ++ [to_d E x]) k = Some y -> nthN (insertN ds index (to_d E x)) k = Some z ->
             slotv v' k = N.lor y z)
        (fun k v' => push_fails c E cl v ds k v' \/ (k = POverflow /\ ovf c = true /\ RC cl v' (ds ++ [to_d E x])))
        (insert c E index x v).
  Proof.
    intros H Hidx. pose proof wide_P as HP1. unfold insert.
    eapply okr_bind_mono; [apply (RC_push Hc Hcomp Hd x H)| |auto].
    intros u v1 H1. cbv beta in H1. cbv zeta.
    assert (HL1 : num v1 = lenN ds + 1) by (rewrite (rc_num H1), lenN_app; reflexivity).
    eapply okr_reads; [reflexivity|]. rewrite HP1, N.mod_1_r. cbn [N.ltb N.compare]. rewrite bind_ret. cbn [fst snd].
    eapply okr_reads; [reflexivity|]. unfold len. rewrite HL1.
    rewrite (proj2 (N.ltb_lt _ _)) by lia.
    eapply okr_lift. { apply (usub_ok Hc Hcomp). lia. }
    unfold block_index; cbn [fst]. rewrite HP1, !N.div_1_r.
    pose proof (wf_cover (rc_wf H1)) as Hcv. rewrite HL1, HP1 in Hcv.
    replace (lenN ds + 1 - 1) with (lenN ds) by lia.
    rewrite (castB Hc Hcomp) by apply Hd.
    destruct (ovf c) eqn:Ho.
    - replace (N.to_nat (lenN ds + 1 - index)) with (S (N.to_nat (lenN ds - index))) by lia.
      rewrite (insert_blocks_debug _ _ Ho (rc_wf H1)) by lia. cbn. right. auto.
    - eapply okr_mono; [apply (insert_blocks_release (n := N.to_nat (lenN ds + 1 - index)) Ho (i := index) (prev := to_d E x) (rc_wf H1))|..].
      + lia.
      + rewrite <- wide_B. apply Hd.
      + intros u2 v' [G1 [G2 G3]]. split; [reflexivity|]. split; [exact G1|]. split; [rewrite G2; exact HL1|].
        intros k y z Hy Hz. pose proof (nthN_Some_lt Hy) as Hk. rewrite lenN_app in Hk. change (lenN [to_d E x]) with 1 in Hk.
        rewrite nthN_insertN in Hz by exact Hidx. rewrite G3.
        replace (index + N.of_nat (N.to_nat (lenN ds + 1 - index))) with (lenN ds + 1) by lia.
        rewrite (proj2 (N.ltb_lt k _)) by lia. rewrite andb_true_r. rewrite (rc_slot H1 Hy).
        destruct (N.ltb_spec k index) as [K|K].
        * rewrite (proj2 (N.leb_gt index k)) by exact K. rewrite nthN_app_l in Hy by lia.
          assert (y = z) by congruence. subst z. symmetry. apply N.lor_diag.
        * rewrite (proj2 (N.leb_le index k)) by exact K. f_equal.
          destruct (N.eqb_spec k index) as [K2|K2]; [congruence|].
          apply (rc_slot H1). rewrite nthN_app_l by lia. exact Hz.
      + intros k s [].
  Qed.

  Lemma RC_remove_wide cl v ds index d x : RC cl v ds -> nthN ds index = Some d -> from_d E d = Some x -> index + 2 < lenN ds ->
    okr (fun r v' => r = x /\ ovf c = false /\ WF v' /\ num v' = lenN ds - 1 /\
           forall k y z, nthN ds k = Some y -> nthN (removeN ds index) k = Some z ->
             slotv v' k = if k <=? index then z else N.lor y z)
        (fun k v' => k = POverflow /\ ovf c = true /\ exists y, nthN ds (index + 1) = Some y /\
                     RC cl v' (firstn (N.to_nat (lenN ds - 1)) (updN ds index y)))
        (remove c E index v).
  Proof.
    intros H Hdn Hx Hi2. unfold remove. pose proof wide_P as HP1.
    pose proof (RC_max Hc Hcomp Hd H) as Hsm.
    pose proof (nthN_Some_lt Hdn) as Hidx.
    eapply okr_reads. { rewrite (RC_get Hc Hcomp Hd _ H), Hdn. unfold from_discr. rewrite Hx. reflexivity. }
    eapply okr_reads. { unfold len. rewrite (rc_num H). apply (usub_ok Hc Hcomp). lia. }
    unfold block_index; cbn [fst]. rewrite HP1, N.div_1_r.
    eapply okr_lift. { apply (umul_ok Hc Hcomp). rewrite N.mul_1_r. lia. }
    cbv zeta. rewrite N.mul_1_r. replace (N.min (lenN ds - 1) (1 + index)) with (index + 1) by lia.
    replace (N.to_nat (index + 1 - index)) with 1%nat by lia.
    eapply okr_bind_mono.
    { apply (remove_slow_ok Hc Hcomp Hd (n := 1) (i := index) H). lia. }
    2:{ intros k s []. }
    intros i v1 [-> [ds1 [H1 [HL1 Hn1]]]]. change (N.of_nat 1) with 1 in *.
    eapply okr_reads. { unfold len. rewrite (rc_num H1), HL1. apply (usub_ok Hc Hcomp). lia. }
    assert (Hlast : lenN ds - 1 < lenN ds1) by lia.
    destruct (nthN_lt_Some Hlast) as [pr Hpr].
    eapply okr_reads. { apply (RC_get_raw_unchecked Hc Hcomp Hd H1 Hpr). }
    eapply okr_reads. { rewrite (rc_num H1), HL1. apply (usub_ok Hc Hcomp). lia. }
    unfold bind at 1, set_len. set (v2 := mkEv (storage v1) (lenN ds - 1)).
    eapply okr_reads; [reflexivity|]. change (len v2) with (lenN ds - 1).
    assert (H2 : RC cl v2 (firstn (N.to_nat (lenN ds - 1)) ds1)) by (apply (RC_set_len_le Hc Hcomp Hd H1); lia).
    rewrite (proj2 (N.ltb_lt (index + 1) (lenN ds - 1))) by lia.
    apply okr_bind. eapply okr_lift. { apply (usub_ok Hc Hcomp). lia. }
    pose proof (RC_cover Hc Hcomp Hd H1) as Hcv. rewrite HL1, HP1 in Hcv.
    rewrite !N.div_1_r. replace (lenN ds - 1 - 1 + 1) with (lenN ds - 1) by lia.
    pose proof (RC_lt2 Hc Hcomp Hd H1 Hpr) as Hprl.
    rewrite (castB Hc Hcomp) by exact Hprl. rewrite wide_B in Hprl.
    destruct (ovf c) eqn:Ho.
    - replace (N.to_nat (lenN ds - 1 - (index + 1))) with (S (N.to_nat (lenN ds - 1 - (index + 2)))) by lia.
      rewrite (fun r => @remove_blocks_debug r _ _ _ Ho (rc_wf H2)); [|change (vlen (storage v2)) with (vlen (storage v1)); lia|exact Hprl].
      cbn. split; [reflexivity|]. split; [reflexivity|].
      destruct (nthN_lt_Some (l := ds) (i := index + 1) ltac:(lia)) as [y Hy]. exists y. split; [exact Hy|].
      replace (updN ds index y) with ds1; [exact H2|]. apply listN_ext. intros k. rewrite Hn1, nthN_updN, (N.eqb_sym index k).
      rewrite (proj2 (N.ltb_lt index (lenN ds))) by exact Hidx.
      destruct (N.eqb_spec k index) as [->|Hne].
      + rewrite (proj2 (N.leb_le index index)), (proj2 (N.ltb_lt index (index + 1))) by lia. exact Hy.
      + destruct (N.leb_spec index k), (N.ltb_spec k (index + 1)); cbn [andb]; try reflexivity; lia.
    - eapply okr_mono; [apply (remove_blocks_release (n := N.to_nat (lenN ds - 1 - (index + 1))) Ho (i := index + 1) (prev := pr) (rc_wf H2))|..].
      + change (vlen (storage v2)) with (vlen (storage v1)). lia.
      + exact Hprl.
      + intros u v' [G1 [G2 G3]]. cbn. split; [reflexivity|]. split; [reflexivity|]. split; [exact G1|]. split; [exact G2|].
        intros k y z Hy Hz. pose proof (nthN_Some_lt Hz) as Hkl. rewrite lenN_removeN in Hkl by exact Hidx.
        rewrite nthN_removeN in Hz by exact Hidx. rewrite G3.
        replace (index + 1 + N.of_nat (N.to_nat (lenN ds - 1 - (index + 1)))) with (lenN ds - 1) by lia.
        rewrite (proj2 (N.ltb_lt k _)) by lia. rewrite andb_true_r.
        change (EvFacts.slotv c E v2) with (EvFacts.slotv c E v1).
        destruct (N.leb_spec k index) as [K|K].
        * rewrite (proj2 (N.leb_gt (index + 1) k)) by lia. apply (rc_slot H1). rewrite Hn1.
          destruct (N.ltb_spec k index) as [K2|K2].
          -- rewrite (proj2 (N.leb_gt index k)) by lia. exact Hz.
          -- rewrite (proj2 (N.leb_le index k)), (proj2 (N.ltb_lt k (index + 1))) by lia. exact Hz.
        * rewrite (proj2 (N.leb_le (index + 1) k)) by lia. rewrite (proj2 (N.ltb_ge k index)) in Hz by lia.
          assert (Hy1 : nthN ds1 k = Some y).
          { rewrite Hn1. rewrite (proj2 (N.ltb_ge k (index + 1))) by lia. rewrite andb_false_r. exact Hy. }
          assert (Hz1 : nthN ds1 (k + 1) = Some z).
          { rewrite Hn1. rewrite (proj2 (N.ltb_ge (k + 1) (index + 1))) by lia. rewrite andb_false_r. exact Hz. }
          rewrite (rc_slot H1 Hy1). f_equal. destruct (N.eqb_spec (k + 1) (lenN ds - 1)) as [K2|K2].
          -- rewrite K2 in Hz1. congruence.
          -- apply (rc_slot H1 Hz1).
      + intros k s [].
  Qed.
End Wide.
