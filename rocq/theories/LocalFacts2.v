(** LocalFacts2.v -- proofs for PropLocal.v: resize, append, the calls of a program. *)
From Verif Require Export LocalFacts.
From Verif Require Import SafeAny MemFacts ClaimFacts.
From Coq Require Import ZifyBool ZifyNat ZifyN.
Open Scope N_scope.
Set Implicit Arguments.

Definition frp {A} (B : N -> Prop) (m : M (ev * ev) A) (s : ev * ev) : Prop := kept B (fst s) (fst (snd (m s))).
Lemma frp_bind B A A' (m : M (ev * ev) A) (f : A -> M (ev * ev) A') s : frp B m s -> (forall a s', m s = (Ret a, s') -> frp B (f a) s') -> frp B (bind m f) s.
Proof.
  unfold frp, bind. intros H1 H2. destruct (m s) as [[a|k| |] s1]; cbn in *; try exact H1. exact (kept_trans H1 (H2 a s1 eq_refl)).
Qed.
Lemma frp_lift B A (o : outcome A) s : frp B (lift o) s. Proof. apply kept_refl. Qed.
Lemma frp_reads B A (g : ev * ev -> outcome A) s : frp B (reads g) s. Proof. apply kept_refl. Qed.
Lemma frp_fst B A (m : M ev A) s : fr B m (fst s) -> frp B (on_fst m) s.
Proof. unfold frp, fr, on_fst. destruct (m (fst s)) as [o v]. auto. Qed.
Lemma frp_snd B A (m : M ev A) s : frp B (on_snd m) s.
Proof. unfold frp, on_snd. destruct (m (snd s)) as [o v]. apply kept_refl. Qed.

Section L2.
  Context {T : Type} (c : cfg) (E : enumlike T).
  Hypothesis Hc : cfg_ok c.
  Hypothesis Hcomp : compiles c E = true.
  Hypothesis Hai : alloc_isize c.
  Local Notation P := (EPB c E).
  Local Notation WF := (WF c E).
  Let HP : 1 <= P := Ppos_any Hc Hcomp Hai.
  Let Hd0 := @zero_d T c E Hc Hcomp Hai.
  Let Hcomp0 := comp0 Hc Hcomp Hai.

  Lemma fr_fill (B : N -> Prop) bv cb k : cb <= alloc_max c -> forall i v, vlen (storage v) <= vcap (storage v) -> vcap (storage v) <= alloc_max c ->
    fr B (for_range k i (fun _ =>
          storage_len <- reads (fun v => Ret (vlen (storage v))) ;;
          n <- lift (uadd c storage_len cb) ;;
          on_storage (vec_resize c n bv))) v.
  Proof.
    intros Hcb. induction k as [|k IH]; intros i v H1 H2; cbn [for_range]; [apply fr_ret|].
    pose proof (isize_blocks Hc Hcomp Hai) as HI.
    apply fr_bind.
    - apply fr_bind; [apply fr_reads|]. intros s v1 E1. injection E1 as <- <-. rewrite uadd_exact by lia.
      apply fr_bind; [apply fr_lift|]. intros n v2 E2. injection E2 as <- <-. apply fr_resize. intros j _ G. lia.
    - intros u v1 E1. unfold bind, reads, lift in E1. rewrite uadd_exact in E1 by lia. unfold on_storage, vec_resize in E1.
      destruct (N.leb_spec (vlen (storage v) + cb) (vlen (storage v))) as [G|G].
      + injection E1 as _ <-. apply IH; cbn; [|exact H2]. unfold vlen in *. cbn. unfold lenN in *. rewrite firstn_length. lia.
      + destruct (vec_ensure_cases Hc Hcomp0 Hd0 (vlen (storage v) + cb) H2) as [[cap' [K [K1 [K2 K3]]]]|[K|K]]; rewrite K in E1; try discriminate.
        injection E1 as _ <-. apply IH; cbn; [|exact K3]. unfold vlen in *. cbn. rewrite lenN_app, lenN_repeat. lia.
  Qed.
  Lemma fr_with_value (B : N -> Prop) x count v : WF v -> num v + count <= usize_max c -> (forall j, B j -> j < num v / P) ->
    fr B (extend_with_value c E x count) v.
  Proof.
    intros Hw Hcount HB. unfold extend_with_value.
    destruct (N.leb_spec count (4 * P)) as [Hle|Hgt].
    - apply (fr_extend Hc Hcomp Hai); [exact Hw| |exact HB]. cbn. rewrite lenN_repeat, N2Nat.id. apply (small_block Hc Hcomp Hai). exact Hle.
    - apply fr_bind; [apply fr_reads|]. intros sl v0 E0. injection E0 as <- <-. unfold len. cbv zeta. set (first := P - num v mod P).
      assert (Hfirst : 1 <= first <= P). { unfold first. pose proof (N.mod_lt (num v) P ltac:(lia)). lia. }
      assert (Hsm : amount c E (lenN (repeat x (N.to_nat first))) = true). { rewrite lenN_repeat, N2Nat.id. apply (small_block Hc Hcomp Hai). lia. }
      apply fr_bind; [apply (fr_extend Hc Hcomp Hai); [exact Hw|exact Hsm|exact HB]|].
      intros u v1 E1. pose proof (any_extend_exact Hc Hcomp Hai Hw Hsm) as G. rewrite E1 in G. cbn in G. destruct G as [W1 Hn1]. clear E1. rewrite lenN_repeat, N2Nat.id in Hn1.
      assert (Hal1 : num v1 = P * (num v / P + 1)).
      { rewrite Hn1. unfold first. pose proof (N.div_mod (num v) P ltac:(lia)). pose proof (N.mod_lt (num v) P ltac:(lia)). lia. }
      rewrite usub_exact by lia. apply fr_bind; [apply fr_lift|]. intros ce v2 E2. injection E2 as <- <-.
      set (ce := count - first). set (cb := ce / P).
      assert (Hcb : P * cb <= ce) by (apply N.mul_div_le; lia).
      rewrite umul_exact by lia. apply fr_bind; [apply fr_lift|]. intros mid v3 E3. injection E3 as <- <-.
      rewrite uadd_exact by lia. apply fr_bind; [apply fr_lift|]. intros s v4 E4. injection E4 as <- <-.
      rewrite usub_exact by lia. apply fr_bind; [apply fr_lift|]. intros la v5 E5. injection E5 as <- <-.
      apply fr_bind; [apply fr_lift|]. intros bv v6 E6. destruct (fill_any Hc Hcomp Hai (to_d E x)) as [bv' [Hbv1 Hbv2]]. unfold lift in E6. rewrite Hbv1 in E6. injection E6 as <- <-.
      apply fr_bind; [apply fr_reads|]. intros ol v7 E7. injection E7 as <- <-.
      assert (Hbf : blocks_for_elements c E (num v1) = num v / P + 1).
      { unfold blocks_for_elements. rewrite Hal1. pose proof (wf_num W1) as HM. rewrite Hal1 in HM. symmetry.
        destruct (N.le_gt_cases (P * (num v / P + 1) + (P - 1)) (usize_max c)) as [Y|Y].
        - rewrite N.min_l by exact Y. apply (N.div_unique _ _ _ (P - 1)); lia.
        - rewrite N.min_r by lia. apply (N.div_unique _ _ _ (usize_max c - P * (num v / P + 1))); lia. }
      apply fr_bind. { apply fr_fix. unfold len. rewrite Hbf. intros j Hj _. apply HB in Hj. lia. }
      intros u8 v8 E8. unfold fix_storage in E8. injection E8 as _ <-.
      set (v8 := mkEv (vec_truncate (blocks_for_elements c E (len v1)) (storage v1)) (num v1)).
      assert (W8 : WF v8).
      { constructor; cbn.
        - apply Forall_forall. intros y Hy. pose proof (wf_blocks W1) as F. rewrite Forall_forall in F. apply F. rewrite <- (firstn_skipn (N.to_nat (blocks_for_elements c E (len v1))) (data (storage v1))). apply in_or_app. left. exact Hy.
        - unfold len. rewrite Hbf. pose proof (wf_cover W1) as X. rewrite Hal1 in X |- *. apply N.mul_le_mono_l. unfold vlen, lenN in *. cbn. rewrite firstn_length. assert (num v / P + 1 <= N.of_nat (length (data (storage v1)))) by nia. lia.
        - pose proof (wf_cap W1) as X. unfold vlen, lenN in *. cbn. rewrite firstn_length. lia.
        - exact (wf_alloc W1).
        - exact (wf_num W1). }
      apply fr_bind; [apply fr_ensure|]. intros u9 v9 E9. fold ce cb in E9 |- *.
      assert (L9 : WF v9 /\ num v9 = num v1 /\ cb <= alloc_max c).
      { unfold on_storage, vec_reserve in E9. pose proof (wf_alloc W8) as A8.
        match type of E9 with context [vec_ensure c ?w _] => destruct (vec_ensure_cases Hc Hcomp0 Hd0 w A8) as [[cap' [K [K1 [K2 K3]]]]|[K|K]]; rewrite K in E9; try discriminate end.
        injection E9 as _ <-. split; [|split; [reflexivity|destruct (_ <? _) in K1; lia]].
        constructor; cbn; [apply (wf_blocks W8)|apply (wf_cover W8)|pose proof (wf_cap W8); unfold vlen in *; cbn in *; lia|exact K3|exact (wf_num W8)]. }
      destruct L9 as (W9 & L94 & L93).
      apply fr_bind; [apply fr_fill; [exact L93|apply (wf_cap W9)|apply (wf_alloc W9)]|]. intros u10 v10 E10.
      assert (Hcb3 : 1 <= cb) by (apply N.div_le_lower_bound; lia).
      pose proof (fill_blocks_loop Hc Hcomp0 Hd0 (N.to_nat cb) (cb := cb) (bv := bv') Hai 0 (wf_blocks W9) (wf_cap W9) (wf_alloc W9) Hcb3 L93 Hbv2) as FB.
      unfold fill_blocks in E10. rewrite E10 in FB. cbn [okr] in FB. destruct FB as [Q1 [Q3 [Q4 Q5]]].
      apply fr_bind; [apply fr_lift|]. intros m1 v11 E11. unfold lift in E11. injection E11 as <- <-.
      apply fr_bind; [apply fr_lift|]. intros n1 v12 E12. unfold lift in E12. rewrite uadd_exact in E12 by (unfold len; lia). injection E12 as <- <-.
      apply fr_bind; [apply fr_set_len|]. intros u13 v13 E13. injection E13 as _ <-.
      unfold len. apply (fr_extend Hc Hcomp Hai).
      + constructor; cbn; [|unfold vlen|exact Q4|exact Q5|lia].
        * rewrite Q3. apply Forall_app; split; [apply (wf_blocks W9)|apply Forall_repeat; exact Hbv2].
        * rewrite Q3, lenN_app, lenN_repeat. pose proof (wf_cover W9) as X. unfold vlen in X. rewrite L94 in X. pose proof (sq_le Hcb3) as Y. clear - X Y.
          rewrite N.mul_add_distr_l, (N.mul_comm cb P). apply N.add_le_mono; [exact X|]. apply N.mul_le_mono_l. cbn in Y |- *. lia.
      + cbn. rewrite lenN_repeat, N2Nat.id. apply (small_block Hc Hcomp Hai).
        assert (ce < P * (cb + 1)). { unfold cb. pose proof (N.mul_succ_div_gt ce P ltac:(lia)). lia. } lia.
      + intros j Hj. apply HB in Hj. cbn. assert (num v / P <= (num v1 + cb * P) / P) by (apply N.div_le_mono; [lia|rewrite Hal1; pose proof (N.mul_div_le (num v) P ltac:(lia)); pose proof (N.mul_succ_div_gt (num v) P ltac:(lia)); lia]). lia.
  Qed.
  Lemma fr_trunc B n v : fr B (truncate n) v.
  Proof. intros j b _ H. unfold truncate. destruct (_ <? _); exact H. Qed.
  Lemma fr_resize_op (B : N -> Prop) n x v : WF v -> n <= usize_max c -> (num v < n -> forall j, B j -> j < num v / P) -> fr B (resize c E n x) v.
  Proof.
    intros Hw Hn HB. unfold resize. apply fr_bind; [apply fr_reads|]. intros l v1 E1. injection E1 as <- <-. unfold len.
    destruct (N.ltb_spec (num v) n) as [G|G]; [|apply fr_trunc]. rewrite usub_exact by lia. apply fr_bind; [apply fr_lift|]. intros d v2 E2. injection E2 as <- <-.
    apply fr_with_value; [exact Hw|lia|auto].
  Qed.
  Lemma below_blocks n j : n <= P * (usize_max c / P) -> j * P < n -> j < blocks_for_elements c E n.
  Proof.
    intros H G. unfold blocks_for_elements. assert (j + 1 <= N.min (n + (P - 1)) (usize_max c) / P); [|lia].
    destruct (N.le_gt_cases (n + (P - 1)) (usize_max c)) as [Y|Y].
    - rewrite N.min_l by exact Y. apply N.div_le_lower_bound; lia.
    - rewrite N.min_r by lia. assert (j < usize_max c / P); [|lia]. apply (N.mul_lt_mono_pos_r P); [lia|]. lia.
  Qed.
  Lemma fr_shrink (B : N -> Prop) v : countableb c E (num v) = true -> (forall j, B j -> j * P < num v) -> fr B (shrink_to_fit c E) v.
  Proof.
    intros Hn HB. unfold countableb in Hn. unfold shrink_to_fit. apply fr_bind.
    - apply fr_fix. intros j Hj _. apply below_blocks; [unfold len; lia|]. unfold len. auto.
    - intros u v1 _ j b _ G. exact G.
  Qed.

  Lemma frp_copy (B : N -> Prop) sl k : (forall j, B j -> j < sl / P) -> forall i s, sl + i + N.of_nat k <= usize_max c ->
    frp B (for_range k i (fun i => idx <- lift (uadd c sl i) ;; d <- reads (fun s => get_raw_unchecked c E i (snd s)) ;; on_fst (set_raw_unchecked c E idx d))) s.
  Proof.
    intros HB. induction k as [|k IH]; intros i s Hu; cbn [for_range]; [apply kept_refl|].
    apply frp_bind; [|intros; apply IH; lia]. rewrite uadd_exact by lia. apply frp_bind; [apply frp_lift|]. intros a s1 E1. injection E1 as <- <-.
    apply frp_bind; [apply frp_reads|]. intros d s2 _. apply frp_fst, fr_set_u. intros G. apply HB in G.
    assert (sl / P <= (sl + i) / P) by (apply N.div_le_mono; lia). lia.
  Qed.
  Lemma frp_append (B : N -> Prop) v w : WF v -> WF w -> (forall j, B j -> j < num v / P) -> frp B (append c E) (v, w).
  Proof.
    intros Hv Hw HB. unfold append. apply frp_bind; [apply frp_reads|]. intros ol s1 E1. injection E1 as <- <-.
    apply frp_bind; [apply frp_reads|]. intros sl s2 E2. injection E2 as <- <-. unfold len. cbn [fst snd].
    destruct (N.eqb_spec (num v mod P) 0) as [A|A].
    - apply frp_bind.
      { apply frp_fst, fr_fix. intros j Hj _. apply HB in Hj. pose proof (wf_num Hv) as HM. apply below_blocks; unfold len; cbn [fst].
        - pose proof (N.div_mod (num v) P ltac:(lia)). assert (num v / P <= usize_max c / P) by (apply N.div_le_mono; lia). rewrite A in *. nia.
        - pose proof (N.mul_div_le (num v) P ltac:(lia)). nia. }
      intros. apply frp_bind; [apply frp_snd|]. intros. apply frp_bind; [apply frp_reads|]. intros.
      apply frp_bind; [apply frp_fst, fr_more|]. intros. apply frp_bind; [destruct (small c); apply frp_snd|]. intros. apply frp_bind; [apply frp_reads|]. intros. apply frp_fst, fr_set_len.
    - assert (H2 : 2 <= P). { destruct (N.eq_dec P 1) as [G|]; [|lia]. rewrite G, N.mod_1_r in A. congruence. }
      assert (Hk : amount c E (num w) = true). { unfold amount, usz. pose proof (wf_num Hw). apply andb_true_intro. split; [lia|]. apply orb_true_intro. left. lia. }
      apply frp_bind.
      { apply frp_fst, (fr_reserve Hc Hcomp Hai); [exact Hv|exact Hk|]. intros j Hj. apply HB in Hj. cbn [fst]. assert (num v / P <= (num v + num w) / P) by (apply N.div_le_mono; lia). lia. }
      intros u s3 E3. unfold on_fst in E3. cbn [fst snd] in E3. pose proof (any_reserve Hc Hcomp Hai Hv Hk) as R.
      destruct (reserve c E (num w) v) as [[r| | |] v1]; try discriminate. cbn in R. destruct R as (R1 & R2 & R3 & R4). injection E3 as _ <-.
      rewrite uadd_exact by exact R4. apply frp_bind; [apply frp_lift|]. intros n s4 E4. injection E4 as <- <-.
      apply frp_bind; [apply frp_fst, fr_set_len|]. intros u5 s5 E5. injection E5 as _ <-. cbn [fst snd].
      apply frp_bind; [apply frp_copy; [exact HB|lia]|]. intros. apply frp_snd.
  Qed.
  Lemma split_storage at_ v : storage (snd (split_off c E at_ v)) = storage v.
  Proof.
    unfold split_off. destruct (_ <=? _); [|reflexivity]. unfold bind, reads, lift. destruct (usub c _ _); try reflexivity.
    destruct (with_capacity c E _); try reflexivity. match goal with |- context [let '(o, other) := ?x in _] => destruct x as [[| | |] ?] end; reflexivity.
  Qed.
End L2.
