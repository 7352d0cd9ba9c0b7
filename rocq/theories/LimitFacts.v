(** LimitFacts.v -- insert, remove, append and with_capacity in the last incomplete block
    below usize::MAX (numbers of elements that are not [countable]). *)
From Verif Require Export ExactClaims RefuteFacts.
From Coq Require Import ZifyBool ZifyNat ZifyN.
Open Scope N_scope.
Set Implicit Arguments.
Unset Strict Implicit.

Lemma bind_Ret S A B (m : M S A) (f : A -> M S B) s a s' : m s = (Ret a, s') -> bind m f s = f a s'.
Proof. intros H. unfold bind. rewrite H. reflexivity. Qed.
Section Limit.
  Context {T : Type} {c : cfg} {E : enumlike T}.
  Hypothesis Hs : setting c E.
  Local Notation Hc := (s_ok Hs).
  Local Notation Hcomp := (s_comp Hs).
  Local Notation Hai := (s_alloc Hs).
  Local Notation Hd := (s_d Hs).
  Local Notation Hfd := (s_fd Hs).
  Local Notation B := (BITS E).
  Local Notation P := (EPB c E).
  Local Notation D := (map (to_d E)).
  Local Notation S0 := (P * (usize_max c / P)).

  Lemma P_le_128 : P <= 128.
  Proof. pose proof (EPB_le_W Hc Hcomp). pose proof (W_cases Hc Hcomp). lia. Qed.
  Lemma S0_big : P < S0.
  Proof.
    pose proof P_le_128 as H. pose proof (Ppos Hc Hcomp Hd) as HP.
    assert (H32 : 2 ^ 32 - 1 <= usize_max c).
    { apply (usize_max_big Hc Hcomp). }
    assert (2 <= usize_max c / P). { apply N.div_le_lower_bound; lia. }
    assert (P * 2 <= S0) by (apply N.mul_le_mono_l; assumption). lia.
  Qed.
  Lemma S0_le : S0 <= usize_max c.
  Proof. pose proof (Ppos Hc Hcomp Hd). apply N.mul_div_le. lia. Qed.
  Lemma S0_next : usize_max c < S0 + P.
  Proof. pose proof (Ppos Hc Hcomp Hd). pose proof (N.mul_succ_div_gt (usize_max c) P ltac:(lia)). lia. Qed.
  Lemma last_block i : S0 <= i -> i <= usize_max c -> i / P = usize_max c / P.
  Proof.
    intros H1 H2. pose proof (Ppos Hc Hcomp Hd). symmetry. apply (N.div_unique _ P _ (i - S0)); [|lia].
    pose proof S0_next. lia.
  Qed.
  Lemma last_mod i : S0 <= i -> i <= usize_max c -> i mod P = i - S0.
  Proof.
    intros H1 H2. pose proof (Ppos Hc Hcomp Hd). symmetry. apply (N.mod_unique _ P (usize_max c / P)); [|lia].
    pose proof S0_next. lia.
  Qed.
  Lemma limit_narrow i : i <= usize_max c -> ~ countable c E i -> B < W c.
  Proof.
    intros Hi H. destruct (N.lt_ge_cases B (W c)) as [L|L]; [exact L|]. exfalso. apply H. unfold countable.
    assert (P = 1) as ->; [|rewrite N.div_1_r; lia].
    pose proof (Ppos Hc Hcomp Hd) as HP. pose proof (EPB_mul Hc Hcomp) as HM. pose proof (BITS_range Hc Hcomp) as [HB1 _].
    destruct (N.le_gt_cases P 1) as [L1|L1]; [lia|].
    assert (2 * B <= P * B) by (apply N.mul_le_mono_r; lia). lia.
  Qed.

  (** ** insert *)
  Lemma uadd_wraps a b : ovf c = false -> usize_max c < a + b -> a + b < 2 * 2 ^ usize_bits c -> uadd c a b = Ret (a + b - 2 ^ usize_bits c).
  Proof.
    intros Ho H1 H2. unfold uadd. rewrite (proj2 (N.leb_gt _ _)) by exact H1. rewrite Ho. f_equal.
    pose proof (usize_pow Hc Hcomp) as Hp. symmetry. apply (N.mod_unique _ _ 1); lia.
  Qed.
  Lemma umul_wraps a b : ovf c = false -> usize_max c < a * b -> a * b < 2 * 2 ^ usize_bits c -> umul c a b = Ret (a * b - 2 ^ usize_bits c).
  Proof.
    intros Ho H1 H2. unfold umul. rewrite (proj2 (N.leb_gt _ _)) by exact H1. rewrite Ho. f_equal.
    pose proof (usize_pow Hc Hcomp) as Hp. symmetry. set (m := a * b) in *. clearbody m. apply (N.mod_unique _ _ 1); lia.
  Qed.

  Local Notation tail index element :=
    (self_len <- reads (fun v => Ret (len v)) ;;
     r <- (if 0 <? index mod P then
             l0 <- lift (usub c index (index mod P)) ;;
             l1 <- lift (uadd c l0 P) ;;
             let slow_limit := N.min l1 self_len in
             insert_slow c E (N.to_nat (slow_limit - index)) index (to_d E element)
           else ret (index, to_d E element)) ;;
     let i := fst r in
     let prev := snd r in
     self_len <- reads (fun v => Ret (len v)) ;;
     if i <? self_len then
       let ib := fst (block_index c E i) in
       l <- lift (usub c self_len 1) ;;
       let last_ib := fst (block_index c E l) in
       insert_blocks c E (N.to_nat (last_ib + 1 - ib)) ib (cast_block c prev)
     else ret tt).
  Lemma insert_tail i x v : insert c E i x v = bind (push c E x) (fun _ => tail i x) v.
  Proof. reflexivity. Qed.
  Lemma tail_limit i x v : ovf c = false \/ i = S0 -> S0 <= i -> i < num v -> num v <= usize_max c ->
    tail i x v = insert_blocks c E 1 (usize_max c / P) (cast_block c (to_d E x)) v.
  Proof.
    intros Ho H1 H2 H3.
    pose proof S0_big as Hb. pose proof S0_le as Hle. pose proof S0_next as Hnx. pose proof P_le_128 as H128. pose proof (usize_max_big Hc Hcomp) as Hbig.
    pose proof (usize_pow Hc Hcomp) as Hp.
    eapply eq_trans; [apply bind_Ret; reflexivity|].
    eapply eq_trans; [apply bind_Ret|].
    { rewrite (last_mod (i := i)) by lia. set (s0 := S0) in *. clearbody s0.
      instantiate (1 := v). instantiate (1 := (i, to_d E x)).
      destruct (N.ltb_spec 0 (i - s0)) as [L|L]; [|reflexivity]. destruct Ho as [Ho|Ho]; [|lia].
      unfold bind at 1, lift at 1. rewrite (usub_ok Hc Hcomp) by lia. unfold bind at 1, lift at 1.
      replace (i - (i - s0)) with s0 by lia. rewrite uadd_wraps by (try assumption; lia). cbv zeta.
      replace (N.to_nat _) with 0%nat by lia. reflexivity. }
    cbn [fst snd]. eapply eq_trans; [apply bind_Ret; reflexivity|]. unfold len. rewrite (proj2 (N.ltb_lt _ _)) by exact H2.
    eapply eq_trans; [apply bind_Ret; unfold lift; rewrite (usub_ok Hc Hcomp) by lia; reflexivity|]. unfold block_index. cbn [fst].
    rewrite (last_block (i := num v - 1)) by lia. rewrite (last_block (i := i)) by lia. replace (usize_max c / P + 1 - usize_max c / P) with 1 by (generalize (usize_max c / P); intros; lia). reflexivity.
  Qed.

  Lemma insert_limit v l i x : ovf c = false -> holds c E v l -> i <= lenN l -> ~ countable c E i ->
    insert c E i x v = insert c E S0 x v.
  Proof.
    intros Ho H Hi Hn. apply (holds_RC Hs) in H. rewrite !insert_tail. unfold bind at 1. unfold bind at 7.
    pose proof (RC_push Hc Hcomp Hd x H) as G. destruct (push c E x v) as [[u|k| |] v1]; try reflexivity.
    cbn [okr] in G. pose proof (rc_num G) as Hnum. rewrite lenN_app, lenN_map in Hnum. change (lenN [to_d E x]) with 1 in Hnum.
    pose proof (RC_max Hc Hcomp Hd G) as Hmx. rewrite lenN_app, lenN_map in Hmx. change (lenN [to_d E x]) with 1 in Hmx.
    assert (Hi2 : S0 < i) by (unfold countable in Hn; lia).
    rewrite !tail_limit; try reflexivity; try (rewrite Hnum); auto; lia.
  Qed.
  Lemma S0_countable : countable c E S0. Proof. apply N.le_refl. Qed.
  Lemma insert_limit_ok v l i x : ovf c = false -> holds c E v l -> i <= lenN l -> ~ countable c E i ->
    result (insert c E i x v) (fun _ v' => holds c E v' (l_insert l S0 x)) (grow_fails c E v l).
  Proof.
    intros Ho H Hi Hn. rewrite (insert_limit x Ho H Hi Hn).
    assert (Hi2 : S0 < i) by (unfold countable in Hn; lia).
    apply (insert_ok Hs); [apply S0_countable| |exact H|lia].
    apply (@limit_narrow i); [|exact Hn]. pose proof (RC_max Hc Hcomp Hd (proj1 (holds_RC Hs _ _) H)) as Hm. rewrite lenN_map in Hm. lia.
  Qed.
  Lemma insert_limit_debug v l i x : ovf c = true -> holds c E v l -> i <= lenN l -> ~ countable c E i ->
    result (insert c E i x v) (fun _ v' => False) (fun k v' => grow_fails c E v l k v' \/ (k = POverflow /\ holds c E v' (l ++ [x]))).
  Proof.
    intros Ho H Hi Hn. pose proof (RC_max Hc Hcomp Hd (proj1 (holds_RC Hs _ _) H)) as Hm. rewrite lenN_map in Hm.
    assert (Hi2 : S0 < i) by (unfold countable in Hn; lia).
    apply (holds_RC Hs) in H. rewrite insert_tail. apply result_okr.
    eapply okr_bind_mono; [apply (RC_push Hc Hcomp Hd x H)| |intros k v' G; left; exact (push_grow Hs G)].
    intros u v1 G. cbv beta in G. rewrite <- (D_snoc Hs) in G.
    eapply okr_reads; [reflexivity|]. apply okr_bind. rewrite last_mod by lia.
    pose proof S0_next as Hnx. set (s0 := S0) in *. clearbody s0. rewrite (proj2 (N.ltb_lt 0 (i - s0))) by lia.
    eapply okr_lift; [apply (usub_ok Hc Hcomp); lia|].
    unfold bind at 1, lift at 1, uadd. rewrite (proj2 (N.leb_gt _ _)) by lia. rewrite Ho. cbn. right. split; [reflexivity|]. apply (RC_holds Hs G).
  Qed.

  (** ** remove *)
  Lemma remove_limit_debug v l i x : ovf c = true -> holds c E v l -> l_get l i = Some x -> ~ countable c E (i + 1) ->
    remove c E i v = (Panic POverflow, v).
  Proof.
    intros Ho H Hx Hn. pose proof (RC_max Hc Hcomp Hd (proj1 (holds_RC Hs _ _) H)) as Hm. rewrite lenN_map in Hm.
    pose proof (@nthN_Some_lt _ l i x Hx) as Hi. assert (Hi2 : S0 <= i) by (unfold countable in Hn; lia).
    unfold remove. unfold bind at 1, reads at 1. rewrite (get_ok Hs _ H), Hx. cbn [obind unwrap].
    unfold bind at 1, reads at 1. unfold len. rewrite (rc_num (proj1 (holds_RC Hs _ _) H)), lenN_map, (usub_ok Hc Hcomp) by lia.
    unfold bind at 1, lift at 1, block_index. cbn [fst]. rewrite last_block by lia.
    unfold umul. rewrite (proj2 (N.leb_gt _ _)); [rewrite Ho; reflexivity|].
    pose proof S0_next. lia.
  Qed.
  Lemma remove_limit v l i x : ovf c = false -> holds c E v l -> l_get l i = Some x -> ~ countable c E (i + 1) ->
    exists v', remove c E i v = (Ret x, v') /\ holds c E v' (l_remove l (if i + 1 =? lenN l then i else S0)).
  Proof.
    intros Ho H Hx Hn. pose proof (RC_max Hc Hcomp Hd (proj1 (holds_RC Hs _ _) H)) as Hm. rewrite lenN_map in Hm.
    pose proof (@nthN_Some_lt _ l i x Hx) as Hi. assert (Hi2 : S0 <= i) by (unfold countable in Hn; lia).
    pose proof S0_big as Hb. pose proof S0_le as Hle. pose proof S0_next as Hnx. pose proof P_le_128 as H128. pose proof (usize_max_big Hc Hcomp) as Hbig.
    pose proof (usize_pow Hc Hcomp) as Hp. pose proof (Ppos Hc Hcomp Hd) as HP.
    assert (HB : B < W c).
    { apply (@limit_narrow (i + 1)); [lia|exact Hn]. }
    assert (Hrem : forall k, k < lenN l -> lenN (l_remove l k) = lenN l - 1).
    { intros k Hk. rewrite <- (lenN_map (to_d E) (l_remove l k)), (remove_D Hc Hcomp Hai Hd Hfd), lenN_removeN, lenN_map; [reflexivity|rewrite lenN_map; exact Hk]. }
    pose proof (proj1 (holds_RC Hs _ _) H) as HR.
    assert (G : okr (fun r v' => r = x /\ holds c E v' (l_remove l (if i + 1 =? lenN l then i else S0))) never (remove c E i v)).
    { unfold remove.
      eapply okr_reads. { rewrite (get_ok Hs _ H), Hx. reflexivity. }
      eapply okr_reads. { unfold len. rewrite (rc_num (proj1 (holds_RC Hs _ _) H)), lenN_map. apply (usub_ok Hc Hcomp). lia. }
      unfold block_index; cbn [fst]. rewrite (last_block (i := i)) by lia.
      eapply okr_lift. { apply umul_wraps; [exact Ho|lia|]. lia. }
      cbv zeta. replace (N.to_nat (N.min _ _ - i)) with 0%nat by lia. cbn [remove_slow].
      eapply okr_bind_mono; [apply okr_ret with (Q := fun r v' => r = i /\ v' = v) (F := never); auto| |intros k s []].
      intros r v0 [-> ->].
      eapply okr_reads. { unfold len. rewrite (rc_num (proj1 (holds_RC Hs _ _) H)), lenN_map. apply (usub_ok Hc Hcomp). lia. }
      assert (Hlast : lenN l - 1 < lenN (D l)) by (rewrite lenN_map; lia).
      destruct (nthN_lt_Some Hlast) as [pr Hpr].
      eapply okr_reads. { apply (RC_get_raw_unchecked Hc Hcomp Hd HR Hpr). }
      eapply okr_reads. { rewrite (rc_num (proj1 (holds_RC Hs _ _) H)), lenN_map. apply (usub_ok Hc Hcomp). lia. }
      unfold bind at 1, set_len. set (v2 := mkEv (storage v) (lenN l - 1)).
      eapply okr_reads; [reflexivity|]. change (len v2) with (lenN l - 1).
      assert (H2 : RC c E false v2 (firstn (N.to_nat (lenN l - 1)) (D l))) by (apply (RC_set_len_le Hc Hcomp Hd HR); rewrite lenN_map; lia).
      destruct (N.eqb_spec (i + 1) (lenN l)) as [Hl|Hl].
      - rewrite (proj2 (N.ltb_ge _ _)) by lia. cbn. split; [reflexivity|].
        apply (holds_RC Hs). rewrite (remove_D Hc Hcomp Hai Hd Hfd). unfold removeN.
        rewrite (skipn_all2 (D l)) by (rewrite map_length; unfold lenN in *; lia). rewrite app_nil_r. replace i with (lenN l - 1) by lia. exact H2.
      - rewrite (proj2 (N.ltb_lt _ _)) by lia. apply okr_bind. eapply okr_lift. { apply (usub_ok Hc Hcomp). lia. }
        rewrite (last_block (i := lenN l - 1 - 1)) by lia. rewrite (last_block (i := i)) by lia. replace (usize_max c / P + 1 - usize_max c / P) with 1 by (generalize (usize_max c / P); intros; lia). change (N.to_nat 1) with 1%nat.
        pose proof (RC_lt2 Hc Hcomp Hd HR Hpr) as Hprl. rewrite (castB Hc Hcomp) by exact Hprl.
        eapply okr_mono.
        { apply (remove_blocks_exact Hc Hcomp Hd (n := 1) HB (ib := usize_max c / P) (prev := pr) (v := v2)).
          - apply (rc_wf H2).
          - change (vlen (storage v2)) with (vlen (storage v)). pose proof (RC_cover Hc Hcomp Hd HR) as Hcv. rewrite lenN_map in Hcv.
            assert (usize_max c / P < vlen (storage v)); [|lia]. rewrite <- (last_block (i := i)) by lia. apply (divP_lt Hc Hcomp). lia.
          - exact Hprl. }
        2:{ intros k s []. }
        intros u v' [G1 [G3 G4]]. cbn. split; [reflexivity|].
        apply (holds_RC Hs). constructor; [exact G1| | |discriminate].
        + rewrite G3, lenN_map, Hrem by lia. reflexivity.
        + intros k e Hk. pose proof (nthN_Some_lt Hk) as Hkl. rewrite lenN_map, Hrem in Hkl by lia.
          rewrite (remove_D Hc Hcomp Hai Hd Hfd), nthN_removeN in Hk by (rewrite lenN_map; lia).
          rewrite G4. change (EvFacts.slotv c E v2) with (EvFacts.slotv c E v).
          replace (usize_max c / P * P) with S0 by lia.
          replace ((usize_max c / P + N.of_nat 1) * P) with (S0 + P) by lia.
          rewrite (proj2 (N.ltb_lt k _)) by lia. rewrite andb_true_r.
          destruct (N.leb_spec S0 k) as [K|K].
          * rewrite (last_mod (i := k)) by lia. set (s0 := S0) in *. clearbody s0. rewrite (proj2 (N.eqb_neq (k - s0) (P - 1))) by lia. rewrite N.lor_0_r.
            rewrite (proj2 (N.ltb_ge k s0)) in Hk by lia. rewrite (proj2 (N.eqb_neq _ _)) by lia. apply (rc_slot HR), Hk.
          * rewrite (proj2 (N.ltb_lt k S0)) in Hk by lia. apply (rc_slot HR), Hk. }
    destruct (noalloc_ret (@noab_remove T c E i) G) as [r [v' [E1 [-> G1]]]]. exists v'. auto.
  Qed.

  (** ** with_capacity *)
  Lemma blocks_limit n : ~ countable c E n -> blocks_for_elements c E n = usize_max c / P.
  Proof.
    intros H. unfold countable in H. pose proof (Ppos Hc Hcomp Hd) as HP. unfold blocks_for_elements. rewrite N.min_r; [reflexivity|].
    pose proof S0_next. lia.
  Qed.
  Lemma with_capacity_limit n : n <= usize_max c -> ~ countable c E n -> with_capacity c E n = with_capacity c E S0.
  Proof.
    intros Hn H. unfold with_capacity. f_equal. f_equal. rewrite (blocks_limit H).
    pose proof (Ppos Hc Hcomp Hd) as HP. unfold blocks_for_elements. pose proof S0_le as Hle.
    apply N.le_antisymm.
    - apply N.div_le_lower_bound; [lia|]. apply N.min_glb; lia.
    - apply N.div_le_mono; lia.
  Qed.

  (** ** append *)
  Lemma firstn_slot v k i n cap : i / P < k -> slotv c E (mkEv (mkRvec (firstn (N.to_nat k) (data (storage v))) cap) n) i = slotv c E v i.
  Proof. intros H. unfold slotv. cbn [storage data]. rewrite nthN_firstn by lia. reflexivity. Qed.
  Lemma cut_storage v l cap : holds c E v l -> ~ countable c E (lenN l) ->
    cut_off c E (mkEv (mkRvec (firstn (N.to_nat (usize_max c / P)) (data (storage v))) cap) (lenN l)) l.
  Proof.
    intros H Hn. pose proof (proj1 (holds_RC Hs _ _) H) as HR. pose proof (RC_max Hc Hcomp Hd HR) as Hm. rewrite lenN_map in Hm.
    pose proof (RC_cover Hc Hcomp Hd HR) as Hcv. rewrite lenN_map in Hcv. pose proof (Ppos Hc Hcomp Hd) as HP.
    unfold countable in Hn. split; [reflexivity|]. intros i x Hx. pose proof (@nthN_Some_lt _ l i x Hx) as Hi.
    set (v' := mkEv _ _).
    assert (HL : vlen (storage v') = usize_max c / P).
    { unfold vlen, v'. cbn [storage data]. rewrite lenN_firstn. unfold vlen in Hcv.
      assert (usize_max c / P < lenN (data (storage v))) by (apply (N.mul_lt_mono_pos_l P); lia). lia. }
    destruct (N.ltb_spec i S0) as [L|L].
    - unfold get, get_raw. change (len v') with (lenN l). rewrite (proj2 (N.leb_gt _ _)) by exact Hi.
      rewrite (get_raw_unchecked_spec Hc Hcomp) by (rewrite HL; exact L). cbn [obind].
      unfold v'. rewrite firstn_slot.
      2:{ apply N.div_lt_upper_bound; lia. }
      rewrite (rc_slot HR (i := i) (d := to_d E x)).
      2:{ rewrite nthN_map, get_D, Hx. reflexivity. }
      unfold from_discr. rewrite Hfd. reflexivity.
    - unfold get, get_raw. change (len v') with (lenN l). rewrite (proj2 (N.leb_gt _ _)) by exact Hi.
      rewrite (get_raw_unchecked_UB Hc Hcomp); [reflexivity|]. rewrite HL. apply N.div_le_lower_bound; lia.
  Qed.
  Lemma append_run v w l m Q F : holds c E v l -> holds c E w m -> lenN l mod P = 0 ->
    let w2 := mkEv (mkRvec (firstn (N.to_nat (blocks_for_elements c E (lenN m))) (data (storage w))) (vcap (storage w))) (lenN m) in
    (forall v1, RC c E false v1 (D l) -> P * vlen (storage v1) = lenN l ->
       F PCapacity (v1, w2) /\
       forall cap w3, vlen (storage v1) + vlen (storage w2) <= cap -> cap <= alloc_max c -> emptied c E w3 m ->
         let s := mkRvec (data (storage v1) ++ data (storage w2)) cap in
         okr Q F (match uadd c (lenN l) (lenN m) with
                  | Ret n => (Ret tt, (mkEv s n, w3))
                  | Panic k => (Panic k, (mkEv s (lenN l), w3))
                  | Abort => (Abort, (mkEv s (lenN l), w3))
                  | UB => (UB, (mkEv s (lenN l), w3))
                  end)) ->
    okr Q F (append c E (v, w)).
  Proof.
    intros H H' Hm w2 HQ. apply (holds_RC Hs) in H. apply (holds_RC Hs) in H'. pose proof (Ppos Hc Hcomp Hd) as HP.
    pose proof (N.div_mod (lenN l) P ltac:(lia)) as Hdm. rewrite Hm in Hdm.
    pose proof (rc_num H) as Hn. pose proof (rc_num H') as Hn'. rewrite lenN_map in Hn, Hn'.
    assert (Hneed : P * need c E (lenN l) = lenN l).
    { pose proof (need_cover Hc Hcomp (n := lenN l)). pose proof (need_mono Hc Hcomp (n := lenN l) (k := lenN l / P) ltac:(lia)). nia. }
    unfold append, len. eapply okr_reads; [reflexivity|]. eapply okr_reads; [reflexivity|]. cbn [fst snd].
    rewrite Hn, Hn'. rewrite (proj2 (N.eqb_eq _ _)) by exact Hm.
    eapply okr_bind_mono.
    { apply (okr_fst (s := (v, w))). apply (RC_fix_storage Hc Hcomp Hd (cl := false) (ds := D l)); [|exact H].
      apply (aligned_fixable Hc Hcomp); [rewrite lenN_map; exact Hm|apply (RC_max Hc Hcomp Hd H)]. }
    2:{ intros k s [[] _]. }
    intros u [v1 w1]. cbn [fst snd]. intros [[H1 [Hn1 [Hv1 Hc1]]] Hw1]. subst w1. rewrite lenN_map in Hv1.
    destruct (HQ v1 H1 ltac:(rewrite Hv1; exact Hneed)) as [Q1 Q2].
    unfold bind at 1, on_snd at 1, fix_storage at 1. cbn [fst snd].
    assert (Ew : mkEv (vec_truncate (blocks_for_elements c E (len w)) (storage w)) (num w) = w2).
    { unfold w2, len, vec_truncate. rewrite Hn'. reflexivity. }
    rewrite Ew. eapply okr_reads; [reflexivity|]. cbn [fst snd].
    unfold bind at 1, on_fst at 1, on_storage, vec_extend_from. cbn [fst snd].
    destruct (vec_ensure_cases Hc Hcomp Hd (vlen (storage v1) + lenN (data (storage w2))) (wf_alloc (rc_wf H1)))
      as [[cap' [-> [G1 [G2 G3]]]]|[->| ->]]; cbn [obind data vcap].
    2:{ exact Q1. }
    2:{ exact I. }
    assert (Hnum1 : num v1 = lenN l) by (rewrite Hn1; exact Hn).
    assert (Fin : forall w3, emptied c E w3 m ->
      okr Q F (bind (reads (fun s => uadd c (num (fst s)) (lenN m))) (fun n => on_fst (set_len n))
        (mkEv (mkRvec (data (storage v1) ++ data (storage w2)) cap') (num v1), w3))).
    { intros w3 Hw3. specialize (Q2 cap' w3 G1 G3 Hw3). cbv zeta in Q2. rewrite Hnum1.
      unfold bind, reads. cbn [fst num].
      destruct (uadd c (lenN l) (lenN m)); exact Q2. }
    unfold emptied in Fin. destruct (small c).
    - unfold bind at 1, on_snd at 1, clear, truncate. cbn [fst snd].
      change (num w2) with (lenN m).
      assert (H0 : holds c E (mkEv (storage w2) 0) []).
      { split.
        - apply (WF_valid (c := c) (E := E)). constructor; cbn.
          + apply Forall_forall. intros b Hb. pose proof (wf_blocks (rc_wf H')) as Hf. rewrite Forall_forall in Hf. apply Hf.
            rewrite <- (firstn_skipn (N.to_nat (blocks_for_elements c E (lenN m)))). apply in_or_app. left. exact Hb.
          + apply N.le_0_l.
          + unfold vlen. cbn. rewrite lenN_firstn. pose proof (wf_cap (rc_wf H')) as K. unfold vlen in K. lia.
          + apply (wf_alloc (rc_wf H')).
          + apply N.le_0_l.
        - intros i. unfold get_raw, len. cbn [num]. rewrite (proj2 (N.leb_le 0 i)) by lia. unfold l_get. destruct (N.to_nat i); reflexivity. }
      destruct (N.ltb_spec 0 (lenN m)) as [L|L].
      + unfold set_len. cbn [fst snd]. apply Fin. exact H0.
      + cbn [fst snd]. apply Fin. replace w2 with (mkEv (storage w2) 0); [exact H0|]. unfold w2. cbn. f_equal. lia.
    - unfold bind at 1, on_snd at 1. cbn [fst snd]. apply Fin. split; [reflexivity|]. intros i Hi.
      apply (get_no_storage Hs); [exact Hi|reflexivity].
  Qed.
  Lemma append_cut v w m : holds c E v [] -> holds c E w m -> ~ countable c E (lenN m) ->
    result (append c E (v, w))
      (fun _ s => cut_off c E (fst s) m /\ emptied c E (snd s) m)
      (fun k s => k = PCapacity /\ holds c E (fst s) [] /\ cut_off c E (snd s) m).
  Proof.
    intros H H' Hn. apply result_okr. pose proof (Ppos Hc Hcomp Hd) as HP.
    pose proof (RC_max Hc Hcomp Hd (proj1 (holds_RC Hs _ _) H')) as Hm. rewrite lenN_map in Hm.
    apply (append_run H H'); [apply N.mod_0_l; lia|]. rewrite (blocks_limit Hn).
    intros v1 H1 Hv1. split.
    - split; [reflexivity|]. split; [apply (holds_RC Hs); exact H1|]. apply cut_storage; assumption.
    - intros cap w3 _ _ Hw3. cbv zeta. change (lenN []) with 0 in *. rewrite (uadd_ok Hc Hcomp) by lia. cbn. split; [|exact Hw3].
      assert (data (storage v1) = []) as ->.
      { assert (vlen (storage v1) = 0) as Hz by nia. unfold vlen, lenN in Hz. destruct (data (storage v1)); [reflexivity|cbn in Hz; lia]. }
      cbn [app]. apply cut_storage; assumption.
  Qed.
  Lemma append_over v w l m : holds c E v l -> holds c E w m -> lenN l mod P = 0 -> usize_max c < lenN l + lenN m ->
    result (append c E (v, w))
      (fun _ s => ovf c = false /\ holds c E (fst s) (firstn (N.to_nat (lenN l + lenN m - (usize_max c + 1))) l) /\ emptied c E (snd s) m)
      (fun k s => holds c E (fst s) l /\
         ((k = PCapacity /\ (countable c E (lenN m) -> holds c E (snd s) m) /\ (~ countable c E (lenN m) -> cut_off c E (snd s) m)) \/
          (k = POverflow /\ ovf c = true /\ emptied c E (snd s) m))).
  Proof.
    intros H H' Hal Ho. apply result_okr. pose proof (Ppos Hc Hcomp Hd) as HP.
    pose proof (RC_max Hc Hcomp Hd (proj1 (holds_RC Hs _ _) H')) as Hm. rewrite lenN_map in Hm.
    pose proof (RC_max Hc Hcomp Hd (proj1 (holds_RC Hs _ _) H)) as Hml. rewrite lenN_map in Hml.
    apply (append_run H H' Hal). intros v1 H1 Hv1. split.
    - split; [apply (holds_RC Hs); exact H1|]. left. split; [reflexivity|]. split.
      + intros Hcn. apply (holds_RC Hs). pose proof (proj1 (holds_RC Hs _ _) H') as HR.
        assert (Hfx : fixable c E (lenN (D m))) by (rewrite lenN_map; exact Hcn).
        pose proof (RC_fix_storage Hc Hcomp Hd Hfx HR) as G. unfold fix_storage, len, vec_truncate in G.
        rewrite (rc_num HR), lenN_map in G. apply G.
      + intros Hcn. cbn [snd]. rewrite (blocks_limit Hcn). apply cut_storage; assumption.
    - intros cap w3 Hc1 Hc2 Hw3. cbv zeta.
      assert (HX : RC c E false (mkEv (mkRvec (data (storage v1) ++ data (storage (mkEv (mkRvec (firstn (N.to_nat (blocks_for_elements c E (lenN m))) (data (storage w))) (vcap (storage w))) (lenN m)))) cap) (num v1)) (D l)).
      { apply (RC_storage Hc Hcomp Hd H1); cbn [data storage vcap].
        - apply Forall_app. split; [apply (wf_blocks (rc_wf H1))|]. apply Forall_forall. intros b Hb.
          pose proof (wf_blocks (rc_wf (proj1 (holds_RC Hs _ _) H'))) as Hf. rewrite Forall_forall in Hf. apply Hf.
          rewrite <- (firstn_skipn (N.to_nat (blocks_for_elements c E (lenN m)))). apply in_or_app. left. exact Hb.
        - rewrite lenN_map, <- Hv1. apply N.mul_le_mono_l. unfold vlen. cbn [data]. rewrite lenN_app. lia.
        - unfold vlen in *. cbn [data storage] in *. rewrite lenN_app. exact Hc1.
        - exact Hc2.
        - intros b Hb. apply nthN_app_l. rewrite lenN_map, <- Hv1 in Hb. unfold vlen in Hb. nia.
        - discriminate. }
      rewrite (rc_num H1), lenN_map in HX. cbn [storage data] in HX |- *.
      destruct (ovf c) eqn:Eo.
      + unfold uadd. rewrite (proj2 (N.leb_gt _ _)) by exact Ho. rewrite Eo. cbn. split; [apply (RC_holds Hs HX)|]. right. auto.
      + pose proof (usize_pow Hc Hcomp) as Hp. rewrite (uadd_wraps Eo) by lia. cbn. split; [reflexivity|]. split; [|exact Hw3].
        rewrite Hp. apply (holds_RC Hs). rewrite <- firstn_map.
        exact (RC_set_len_le Hc Hcomp Hd HX (n := lenN l + lenN m - (usize_max c + 1)) ltac:(rewrite lenN_map; lia)).
  Qed.
End Limit.

(** Witnesses: a 32-bit target, up to 2^32 - 1 one-bit elements in 512 MiB. *)
Definition lim (debug sm : bool) : cfg := std_cfg 32 32 debug sm (2 ^ 28).
Definition zeros (n : N) : ev := mkEv (mkRvec (repeat 0 (N.to_nat (2 ^ 27))) (2 ^ 27)) n.
Definition one2 : Fin 2 := fv 2 1 eq_refl.
Lemma s_lim debug sm : setting (lim debug sm) (fin 2).
Proof.
  split; [apply std_cfg_ok; [cbn; auto|left; reflexivity|intros _; split; [reflexivity|vm_compute; discriminate]]|].
  split; [vm_compute; discriminate|]. split; [split; [destruct debug; destruct sm; reflexivity|vm_compute; discriminate]|apply fin_lawful].
Qed.
Lemma zeros_holds debug sm n : n <= 2 ^ 32 - 1 -> holds (lim debug sm) (fin 2) (zeros n) (repeat f2 (N.to_nat n)).
Proof.
  intros Hn. split.
  - split; [|split; [|split; [|split]]].
    + unfold zeros. cbn [data storage]. intros b Hb. apply repeat_spec in Hb. subst b. reflexivity.
    + unfold zeros, len, vlen. cbn [num data storage]. rewrite lenN_repeat, N2Nat.id. change (EPB (lim debug sm) (fin 2)) with 32. lia.
    + unfold zeros, vlen. cbn [data storage vcap]. rewrite lenN_repeat, N2Nat.id. apply N.le_refl.
    + unfold zeros. cbn [storage vcap]. vm_compute. discriminate.
    + unfold zeros, len. cbn [num]. exact Hn.
  - intros i. unfold get_raw. change (len (zeros n)) with n.
    destruct (N.leb_spec n i) as [H|H].
    + unfold l_get. rewrite (proj2 (nth_error_None _ _)); [reflexivity|]. rewrite repeat_length. lia.
    + rewrite l_get_repeat by lia.
      unfold get_raw_unchecked, block_index, load_unchecked. change (EPB (lim debug sm) (fin 2)) with 32. change (BITS (fin 2)) with 1.
      unfold zeros. cbn [data storage]. rewrite nthN_repeat.
      * cbn [obind]. unfold shr. change (W (lim debug sm)) with 32.
        pose proof (N.mod_lt i 32 ltac:(lia)). rewrite (proj2 (N.ltb_lt _ _)) by lia. rewrite N.shiftr_0_l. reflexivity.
      * rewrite N2Nat.id. apply N.div_lt_upper_bound; [lia|]. change (32 * 2 ^ 27) with (2 ^ 32). lia.
Qed.
Lemma C25_not : ~ C25_full.
Proof.
  intros H. specialize (H _ (lim false false) (fin 2) (s_lim _ _) (2 ^ 32 - 1) ltac:(vm_compute; discriminate)).
  destruct (with_capacity (lim false false) (fin 2) (2 ^ 32 - 1)) as [v|k| |] eqn:Ew; vm_compute in Ew; try discriminate.
  injection Ew as <-. cbn [builds] in H. destruct H as [_ H]. vm_compute in H. apply H. reflexivity.
Qed.
Lemma lim_uncountable debug sm n : 2 ^ 32 - 32 < n -> ~ countable (lim debug sm) (fin 2) n.
Proof. intros H G. unfold countable in G. change (EPB (lim debug sm) (fin 2) * (usize_max (lim debug sm) / EPB (lim debug sm) (fin 2))) with (2 ^ 32 - 32) in G. lia. Qed.
