(** SafeAny.v -- memory safety of programs whose element type has ANY implementation of
    EnumLike, also one that breaks the contract (to_discr >= NUM_VARIANTS, from_discr not
    its inverse, more than 2^32 variants on the wide storages).  EnumLike is a safe trait. *)
From Verif Require Export ProgFacts.
From Coq Require Import ZifyBool ZifyNat ZifyN.
Open Scope N_scope.
Set Implicit Arguments.
Unset Strict Implicit.
Set Default Proof Using "Type*".

(** The same type with a harmless to_discr: code that never calls to_discr cannot tell. *)
Definition zeroed {T} (E : enumlike T) : enumlike T := {| nv := nv E; to_d := fun _ => 0; from_d := from_d E |}.

Section Any.
  Context {T : Type} {c : cfg} {E : enumlike T}.
  Local Notation E0 := (zeroed E).
  Local Notation B := (BITS E).
  Local Notation P := (EPB c E).
  Local Notation WF := (WF c E).

  Hypothesis Hc : cfg_ok c.
  Hypothesis Hcomp : compiles c E = true.
  Hypothesis Hai : alloc_isize c.

  Lemma zero_d (x : T) : to_d E0 x < 2 ^ BITS E0.
  Proof. cbn. apply pow2_pos. Qed.
  Lemma comp0 : compiles c E0 = true. Proof. exact Hcomp. Qed.
  Lemma WF0 v : EvFacts.WF c E0 v <-> WF v.
  Proof. split; intros [H1 H2 H3 H4 H5]; constructor; assumption. Qed.
  Local Notation H0 f := (f T c E0 Hc comp0 zero_d).
  Local Notation raw0 H := (WF_RC Hc comp0 zero_d (proj2 (WF0 _) H)).

  Lemma Ppos_any : 1 <= P. Proof. exact (Ppos Hc comp0 zero_d). Qed.
  Lemma small_any v : WF v -> num v <= usize_max c. Proof. intros Hw. exact (wf_num Hw). Qed.

  Lemma any_set_raw v i d : WF v -> i < num v -> exists v', set_raw c E i d v = (Ret tt, v') /\ WF v' /\ num v' = num v.
  Proof.
    intros Hw Hi. pose proof (wf_cover Hw) as Hcv. unfold set_raw, len.
    rewrite (proj2 (N.leb_gt _ _)) by exact Hi.
    rewrite (set_raw_unchecked_spec Hc Hcomp) by lia. eexists; split; [reflexivity|].
    split; [apply (WF_set_at Hc Hcomp), Hw|apply (num_set_at Hc Hcomp)].
  Qed.
  Lemma any_set v i x : WF v -> okr (fun _ v' => WF v' /\ num v' = num v) (fun _ v' => v' = v) (set c E i x v).
  Proof.
    intros Hw. unfold set. destruct (N.lt_ge_cases i (num v)) as [Hi|Hi].
    - destruct (any_set_raw (to_d E x) Hw Hi) as [v' [-> G]]. exact G.
    - unfold set_raw, len. rewrite (proj2 (N.leb_le _ _)) by exact Hi. reflexivity.
  Qed.
  Lemma any_get v i : WF v -> i < num v -> (exists x, get c E i v = Ret (Some x)) \/ get c E i v = Panic PDiscr.
  Proof.
    intros Hw Hi. destruct (WF_get Hc comp0 zero_d (proj2 (WF0 v) Hw) Hi) as [o [Ho [[x ->]| ->]]].
    - left. exists x. exact Ho.
    - right. exact Ho.
  Qed.
  Lemma any_set_len v n : WF v -> n <= P * vlen (storage v) -> n <= usize_max c -> WF (mkEv (storage v) n).
  Proof. intros [H1 H2 H3 H4 H5] Hn Hu. constructor; cbn; assumption. Qed.

  Lemma any_grow v : WF v -> okr (fun _ v' => WF v' /\ num v' = num v /\ num v < P * vlen (storage v')) (fun _ v' => v' = v) (grow_if_needed c E v).
  Proof.
    intros Hw. change (grow_if_needed c E v) with (grow_if_needed c E0 v).
    eapply okr_mono; [apply (RC_grow Hc comp0 zero_d (raw0 Hw))|..].
    - intros u v' [G1 [G2 G3]]. split; [apply WF0; exact (rc_wf G1)|split; [exact G2|exact G3]].
    - intros k v' [_ G]. exact G.
  Qed.
  Lemma any_push v x : WF v -> okr (fun _ v' => WF v' /\ num v' = num v + 1) (fun _ v' => WF v') (push c E x v).
  Proof.
    intros Hw. unfold push. pose proof (small_any Hw) as Hsm.
    eapply okr_bind_mono; [apply (any_grow Hw)| |intros k v' ->; exact Hw].
    intros u v1 [H1 [H2 H3]]. eapply okr_reads; [reflexivity|]. rewrite H2.
    destruct (N.leb_spec (num v + 1) (usize_max c)) as [Hle|Hgt]; [|exact H1].
    eapply okr_lift; [reflexivity|].
    unfold bind at 1, set_len. unfold set.
    assert (Hw2 : WF (mkEv (storage v1) (num v + 1))) by (apply any_set_len; [exact H1|lia|exact Hle]).
    destruct (any_set_raw (i := num v) (to_d E x) Hw2) as [v' [-> [G1 G2]]]; [cbn; lia|].
    split; [exact G1|exact G2].
  Qed.
  Lemma any_reserve v k : WF v -> amount c E k = true ->
    okr (fun _ v' => WF v' /\ num v' = num v /\ num v + k <= P * vlen (storage v') /\ num v + k <= usize_max c) (fun _ v' => v' = v) (reserve c E k v).
  Proof.
    intros Hw Hk. pose proof (raw0 Hw) as R. pose proof (rc_num R) as Hn.
    destruct (N.le_gt_cases (num v + k) (usize_max c)) as [Hle|Hgt].
    - rewrite Hn in Hle. change (reserve c E k v) with (reserve c E0 k v).
      eapply okr_mono; [apply (RC_reserve Hc comp0 zero_d R Hle (amount_fits Hc comp0 Hai zero_d R Hk))|..].
      + intros u v' [G1 [G2 G3]]. split; [apply WF0; exact (rc_wf G1)|]. split; [exact G2|]. rewrite Hn. split; [|exact Hle].
        rewrite G3. pose proof Ppos_any as HP. change (EPB c E0) with P.
        pose proof (N.mul_succ_div_gt (lenN (@rawlist T c E0 v) + k) P ltac:(lia)). lia.
      + intros q v' [_ G]. exact G.
    - change (reserve c E k v) with (reserve c E0 k v). rewrite Hn in Hgt.
      rewrite (RC_reserve_overflow Hc comp0 zero_d R Hgt). reflexivity.
  Qed.
  Lemma any_known n : forall v i sl pan l, WF v -> sl + i + N.of_nat n <= num v ->
    okr (fun _ v' => WF v') (fun _ v' => WF v') (extend_known c E n i sl pan l v).
  Proof.
    induction n as [|n IH]; intros v i sl pan l Hw Hn; cbn [extend_known]; [exact Hw|].
    pose proof (small_any Hw) as Hsm. eapply okr_lift. { apply (uadd_ok Hc Hcomp). lia. }
    destruct l as [|x l]; [destruct pan; exact Hw|].
    eapply okr_bind_mono; [apply (any_set (sl + i) x Hw)|..].
    - intros u v1 [G1 G2]. apply IH; [exact G1|lia].
    - intros k v' ->. exact Hw.
  Qed.
  Lemma any_rest pan l : forall v, WF v -> okr (fun _ v' => WF v') (fun _ v' => WF v') (extend_rest c E pan l v).
  Proof.
    induction l as [|x l IH]; intros v Hw; cbn [extend_rest]; [destruct pan; exact Hw|].
    eapply okr_bind_mono; [apply (any_push x Hw)|..].
    - intros u v1 [G _]. apply IH. exact G.
    - auto.
  Qed.
  Lemma any_extend v it : WF v -> amount c E (lower it) = true -> okr (fun _ v' => WF v') (fun _ v' => WF v') (extend c E it v).
  Proof.
    intros Hw Hk. unfold extend. eapply okr_reads; [reflexivity|].
    eapply okr_bind_mono; [apply (any_reserve Hw Hk)|..].
    - intros u v1 [G1 [G2 [G3 G4]]]. eapply okr_reads. { rewrite G2. apply (uadd_ok Hc Hcomp). exact G4. }
      unfold bind at 1, set_len. eapply okr_bind_mono.
      + apply (any_known (n := N.to_nat (lower it)) (v := mkEv (storage v1) (num v + lower it)) (i := 0) (sl := len v)).
        * apply any_set_len; [exact G1|exact G3|exact G4].
        * cbn. unfold len. lia.
      + intros rest v2 G. apply any_rest. exact G.
      + auto.
    - intros k v' ->. exact Hw.
  Qed.
  (** the number of elements after extend with an exact iterator *)
  Lemma known_num n : forall v i sl l, WF v -> sl + i + N.of_nat n <= num v -> lenN l = N.of_nat n ->
    okr (fun rest v' => rest = [] /\ WF v' /\ num v' = num v) never (extend_known c E n i sl false l v).
  Proof.
    induction n as [|n IH]; intros v i sl l Hw Hn Hl; cbn [extend_known].
    - cbn. split; [apply lenN_nil_inv; exact Hl|split; [exact Hw|reflexivity]].
    - pose proof (small_any Hw) as Hsm. destruct (lenN_cons_inv Hl) as [x [l' [-> Hl']]].
      eapply okr_lift. { apply (uadd_ok Hc Hcomp). lia. }
      destruct (any_set_raw (i := sl + i) (to_d E x) Hw) as [v1 [Hs [G1 G2]]]; [lia|].
      unfold set, bind at 1. rewrite Hs.
      eapply okr_mono; [apply (IH v1 (i + 1) sl l' G1); lia|..].
      + intros rest v' [K1 [K2 K3]]. split; [exact K1|split; [exact K2|lia]].
      + intros k v' [].
  Qed.
  Lemma any_extend_exact v l : WF v -> amount c E (lenN l) = true ->
    okr (fun _ v' => WF v' /\ num v' = num v + lenN l) (fun _ v' => v' = v) (extend c E (exact_iter l) v).
  Proof.
    intros Hw Hk. unfold extend. eapply okr_reads; [reflexivity|]. cbn [lower exact_iter items ends_in_panic].
    eapply okr_bind_mono; [apply (any_reserve Hw Hk)| |auto].
    intros u v1 [G1 [G2 [G3 G4]]]. eapply okr_reads. { rewrite G2. apply (uadd_ok Hc Hcomp). exact G4. }
    unfold bind at 1, set_len. eapply okr_bind_mono.
    - apply (known_num (n := N.to_nat (lenN l)) (v := mkEv (storage v1) (num v + lenN l)) (i := 0) (sl := len v) (l := l)).
      + apply any_set_len; [exact G1|exact G3|exact G4].
      + cbn. unfold len. lia.
      + lia.
    - intros rest v2 [-> [K1 K2]]. cbn. split; [exact K1|exact K2].
    - intros k s [].
  Qed.
  Lemma fill_lt fuel : forall b i, b < 2 ^ W c -> W c <= i * 2 ^ N.of_nat fuel ->
    exists p, fill_pattern c (S fuel) b i = Ret p /\ p < 2 ^ W c.
  Proof.
    induction fuel as [|f IH]; intros b i Hb Hf.
    - cbn [fill_pattern]. change (2 ^ N.of_nat 0) with 1 in Hf. rewrite (proj2 (N.ltb_ge _ _)) by lia. eauto.
    - change (fill_pattern c (S (S f)) b i) with
        (if i <? W c then let! t := shl c b i in fill_pattern c (S f) (N.lor b t) (i * 2) else Ret b).
      destruct (N.ltb_spec i (W c)) as [Hi|Hi]; [|eauto].
      rewrite (shl_ok Hc Hcomp) by exact Hi. cbn [obind]. apply IH.
      + apply lor_lt; [exact Hb|apply mod_pow2_lt].
      + rewrite Nat2N.inj_succ, N.pow_succ_r' in Hf. lia.
  Qed.
  Lemma fill_any d : exists p, fill_pattern c 9 (cast_block c d) B = Ret p /\ p < 2 ^ W c.
  Proof.
    apply fill_lt; [apply mod_pow2_lt|]. pose proof (BITS_range Hc Hcomp) as [HB _].
    pose proof (ok_W Hc) as HW. assert (W c <= 2 ^ 8).
    { destruct HW as [<-|[<-|[<-|[<-|[<-|[]]]]]]; vm_compute; discriminate. }
    change (N.of_nat 8) with 8. nia.
  Qed.
  Lemma amount_small k : k <= isize_max c -> amount c E k = true.
  Proof.
    intros H. unfold amount, usz. rewrite (proj2 (N.leb_le k (isize_max c))) by exact H. rewrite orb_true_r, andb_true_r.
    apply N.leb_le. eapply N.le_trans; [exact H|]. unfold isize_max, usize_max.
    pose proof (N.pow_le_mono_r 2 (usize_bits c - 1) (usize_bits c) ltac:(lia) ltac:(lia)). lia.
  Qed.
  Lemma small_block k : k <= 4 * P -> amount c E k = true.
  Proof.
    intros H. apply amount_small. pose proof (EPB_le_W Hc Hcomp) as HP.
    assert (W c <= 128). { destruct (ok_W Hc) as [<-|[<-|[<-|[<-|[<-|[]]]]]]; lia. }
    unfold isize_max. destruct (ok_usize Hc) as [-> | ->]; cbn; lia.
  Qed.
  Lemma any_with_value v x count : WF v -> num v + count <= usize_max c ->
    okr (fun _ v' => WF v') (fun _ v' => WF v') (extend_with_value c E x count v).
  Proof.
    intros Hw Hcount. unfold extend_with_value. pose proof Ppos_any as HP. pose proof (small_any Hw) as Hsm.
    destruct (N.leb_spec count (4 * P)) as [Hle|Hgt].
    - apply any_extend; [exact Hw|]. cbn. rewrite lenN_repeat, N2Nat.id. apply small_block. exact Hle.
    - eapply okr_reads; [reflexivity|]. unfold len. set (first := P - num v mod P).
      assert (Hfirst : 1 <= first <= P).
      { unfold first. pose proof (N.mod_lt (num v) P ltac:(lia)). lia. }
      eapply okr_bind_mono.
      { apply (any_extend_exact (l := repeat x (N.to_nat first)) Hw). rewrite lenN_repeat, N2Nat.id. apply small_block. lia. }
      2:{ intros k v' ->. exact Hw. }
      intros u v1 [G Hn1]. rewrite lenN_repeat, N2Nat.id in Hn1.
      assert (Hal1 : num v1 = P * (num v / P + 1)).
      { rewrite Hn1. unfold first. pose proof (N.div_mod (num v) P ltac:(lia)). pose proof (N.mod_lt (num v) P ltac:(lia)). lia. }
      set (ce := count - first). set (cb := ce / P).
      eapply okr_lift. { apply (usub_ok Hc Hcomp). lia. } fold ce. cbv zeta. fold cb.
      assert (Hcb : P * cb <= ce) by (apply N.mul_div_le; lia).
      assert (Hcb3 : 1 <= cb) by (apply N.div_le_lower_bound; lia).
      assert (Hcbm : ce < P * (cb + 1)).
      { unfold cb. pose proof (N.mul_succ_div_gt ce P ltac:(lia)). lia. }
      eapply okr_lift. { apply (umul_ok Hc Hcomp). lia. }
      eapply okr_lift. { apply (uadd_ok Hc Hcomp). lia. }
      eapply okr_lift. { apply (usub_ok Hc Hcomp). lia. }
      set (last := count - (first + cb * P)).
      destruct (fill_any (to_d E x)) as [bv [Hbv1 Hbv2]].
      eapply okr_lift; [exact Hbv1|].
      eapply okr_reads; [reflexivity|].
      pose proof (raw0 G) as RG. pose proof (rc_num RG) as HRG.
      assert (Hfx : fixable c E0 (lenN (@rawlist T c E0 v1))).
      { apply (aligned_fixable Hc comp0); [|apply (RC_max Hc comp0 zero_d RG)]. rewrite <- HRG, Hal1, N.mul_comm. apply N.mod_mul. change (EPB c E0) with P. lia. }
      eapply okr_bind_mono; [apply (RC_fix_storage Hc comp0 zero_d (ds := _) Hfx RG)| |intros k s []].
      intros u2 v2 [G2 [Hn2 [Hv2 _]]]. pose proof (proj1 (WF0 _) (rc_wf G2)) as W2.
      pose proof (wf_alloc W2) as Hal2. pose proof (wf_cap W2) as Hcap2. pose proof (wf_cover W2) as Hcov2.
      unfold bind at 1. unfold on_storage at 1, vec_reserve.
      destruct (vec_ensure_cases Hc comp0 zero_d (vlen (storage v2) + (cb + (if 0 <? last then 1 else 0))) Hal2)
        as [[cap' [-> [K1 [K2 K3]]]]|[->| ->]]; cbn [okr]; [| |exact I].
      2:{ exact W2. }
      set (v2' := mkEv (mkRvec (data (storage v2)) cap') (num v2)).
      assert (W2' : WF v2').
      { constructor; cbn; [apply (wf_blocks W2)|exact Hcov2|unfold vlen in *; cbn; lia|exact K3|exact (wf_num W2)]. }
      unfold fill_blocks.
      eapply okr_bind_mono.
      { apply (fill_blocks_loop Hc comp0 zero_d (N.to_nat cb) (cb := cb) (bv := bv) Hai 0 (v := v2')).
        - apply (wf_blocks W2').
        - apply (wf_cap W2').
        - apply (wf_alloc W2').
        - exact Hcb3.
        - lia.
        - exact Hbv2. }
      2:{ intros k v' [_ [Q1 [[j [Q2 Q3]] [Q4 Q5]]]]. constructor; auto.
          - rewrite Q3. apply Forall_app; split; [apply (wf_blocks W2')|apply Forall_repeat; exact Hbv2].
          - rewrite Q1. unfold vlen. rewrite Q3, lenN_app. pose proof (wf_cover W2') as X. unfold vlen in X.
            eapply N.le_trans; [exact X|]. apply N.mul_le_mono_l. apply N.le_add_r.
          - rewrite Q1. exact (wf_num W2'). }
      intros u3 v3 [Q1 [Q3 [Q4 Q5]]].
      assert (R : WF (mkEv (storage v3) (num v1 + cb * P))).
      { constructor; auto.
        - cbn. rewrite Q3. apply Forall_app; split; [apply (wf_blocks W2')|apply Forall_repeat; exact Hbv2].
        - cbn. unfold vlen. rewrite Q3, lenN_app, lenN_repeat. pose proof (wf_cover W2') as X. unfold vlen in X. cbn [num v2'] in X.
          rewrite Hn2 in X. pose proof (sq_le Hcb3) as Y. clear - X Y.
          rewrite N.mul_add_distr_l, (N.mul_comm cb P). apply N.add_le_mono; [exact X|].
          apply N.mul_le_mono_l. cbn in Y |- *. lia.
        - cbn. lia. }
      eapply okr_lift. { apply (umul_ok Hc Hcomp). lia. }
      eapply okr_lift. { apply (uadd_ok Hc Hcomp). pose proof (small_any R) as Hx. cbn in Hx. unfold len. lia. }
      unfold bind at 1, set_len.
      apply any_extend; [exact R|]. cbn. rewrite lenN_repeat, N2Nat.id. apply small_block. unfold last. lia.
  Qed.

  Lemma any_insert v index x : WF v -> okr (fun _ v' => WF v') (fun _ v' => WF v') (insert c E index x v).
  Proof.
    intros Hw. unfold insert. eapply okr_bind_mono; [apply (any_push x Hw)| |auto].
    intros u v1 [H1 Hn1]. cbv zeta.
    eapply okr_mono; [apply (insert_tail_safe Hc comp0 zero_d index (to_d E x) (proj2 (WF0 v1) H1))|..].
    - intros u2 v' [G _]. apply WF0. exact G.
    - intros k v' [_ [_ [G _]]]. apply WF0. exact G.
  Qed.

  Lemma any_retain_loop St (f : St -> T -> option (bool * St)) n : forall i s st v,
    WF v -> s <= i -> i + N.of_nat n = num v ->
    okr (fun r v' => WF v' /\ num v' = num v /\ fst r <= num v) (fun k v' => WF v') (retain_loop c E f n i s st v).
  Proof.
    induction n as [|n IH]; intros i s st v Hw Hs Hn; cbn [retain_loop].
    - cbn. split; [exact Hw|split; [reflexivity|lia]].
    - destruct (any_get Hw (i := i)) as [[x Ho]|Ho]; [lia| |].
      + eapply okr_reads; [rewrite Ho; reflexivity|]. destruct (f st x) as [[[|] st']|].
        * destruct (any_set_raw (i := s) (to_d E x) Hw) as [v' [Hv' [Hw' Hn']]]; [lia|]. unfold bind at 1, set. rewrite Hv'.
          eapply okr_mono; [apply (IH (i + 1) (s + 1) st' v' Hw'); lia|..].
          -- intros r s0 [G1 [G2 G3]]. split; [exact G1|split; lia].
          -- auto.
        * apply (IH (i + 1) s st' v Hw); lia.
        * exact Hw.
      + unfold bind, reads. rewrite Ho. exact Hw.
  Qed.
  Lemma any_retain St (f : St -> T -> option (bool * St)) st v : WF v -> okr (fun _ v' => WF v') (fun _ v' => WF v') (retain c E f st v).
  Proof.
    intros Hw. unfold retain. eapply okr_reads; [reflexivity|]. unfold len.
    eapply okr_bind_mono; [apply (any_retain_loop f (n := N.to_nat (num v)) (i := 0) (s := 0) st Hw); lia| |auto].
    intros r v1 [G1 [G2 G3]]. cbn. apply any_set_len; [exact G1|pose proof (wf_cover G1); lia|pose proof (wf_num G1); lia].
  Qed.
  Lemma any_for_each_loop St (f : St -> T -> option (T * St)) n : forall i st v,
    WF v -> i + N.of_nat n = num v -> okr (fun _ v' => WF v') (fun _ v' => WF v') (for_each_loop c E f n i st v).
  Proof.
    induction n as [|n IH]; intros i st v Hw Hn; cbn [for_each_loop]; [exact Hw|].
    destruct (any_get Hw (i := i)) as [[x Ho]|Ho]; [lia| |].
    - eapply okr_reads; [rewrite Ho; reflexivity|]. destruct (f st x) as [[y st']|]; [|exact Hw].
      destruct (any_set_raw (i := i) (to_d E y) Hw) as [v' [Hv' [Hw' Hn']]]; [lia|]. unfold bind at 1, set. rewrite Hv'.
      apply IH; [exact Hw'|lia].
    - unfold bind, reads. rewrite Ho. exact Hw.
  Qed.

  Lemma shl_not_UB x n : shl c x n <> UB. Proof. unfold shl. destruct (n <? W c); [discriminate|]. destruct (ovf c); discriminate. Qed.
  Lemma shr_not_UB x n : shr c x n <> UB. Proof. unfold shr. destruct (n <? W c); [discriminate|]. destruct (ovf c); discriminate. Qed.
  Lemma bmul_not_UB x y : bmul c x y <> UB. Proof. unfold bmul. destruct (_ <? _); [discriminate|]. destruct (ovf c); discriminate. Qed.
  Lemma load_not_UB w v : load w v <> UB. Proof. unfold load. destruct (nthN _ _); discriminate. Qed.
  Lemma obind_not_UB A A' (m : outcome A) (f : A -> outcome A') : m <> UB -> (forall a, f a <> UB) -> obind m f <> UB.
  Proof. intros Hm Hf. destruct m; cbn; auto; congruence. Qed.
  Lemma any_loop_not_UB n : forall i one high xm v, any_loop c n i one high xm v <> UB.
  Proof.
    induction n as [|n IH]; intros; cbn [any_loop]; [discriminate|]. apply obind_not_UB; [apply load_not_UB|]. intros b.
    destruct (haszero _ _ _ _); [discriminate|apply IH].
  Qed.
  Lemma all_loop_not_UB n : forall i valid xm v, all_loop n i valid xm v <> UB.
  Proof.
    induction n as [|n IH]; intros; cbn [all_loop]; [discriminate|]. apply obind_not_UB; [apply load_not_UB|]. intros b.
    destruct (negb _); [discriminate|apply IH].
  Qed.
  Lemma any_not_UB x v : any c E x v <> UB.
  Proof.
    unfold any. destruct (is_empty v); [discriminate|]. unfold block_index. unfold one_mask, x_mask, one_mask.
    repeat (apply obind_not_UB; [first [apply shr_not_UB|apply shl_not_UB|apply any_loop_not_UB|apply obind_not_UB; [apply shr_not_UB|intros; apply bmul_not_UB]]|intros ?]).
    destruct a2; [discriminate|]. destruct (negb _); [|discriminate].
    apply obind_not_UB; [apply shl_not_UB|]. intros ?. apply obind_not_UB; [apply load_not_UB|]. discriminate.
  Qed.
  Lemma all_not_UB x v : all c E x v <> UB.
  Proof.
    unfold all. destruct (is_empty v); [discriminate|]. unfold block_index. unfold x_mask, one_mask.
    repeat (apply obind_not_UB; [first [apply shr_not_UB|apply shl_not_UB|apply all_loop_not_UB|apply obind_not_UB; [apply shr_not_UB|intros; apply bmul_not_UB]]|intros ?]).
    destruct (negb _); [discriminate|]. destruct (negb _); [|discriminate].
    apply obind_not_UB; [apply shl_not_UB|]. intros ?. apply obind_not_UB; [apply load_not_UB|]. discriminate.
  Qed.

  Definition safe_any_out (r : mout T * list ev) : Prop :=
    match fst r with MUB => False | MAbort => True | _ => Forall WF (snd r) end.
  Lemma Forall_WF0 p : Forall (EvFacts.WF c E0) p <-> Forall WF p.
  Proof. split; apply Forall_impl; intros v; apply WF0. Qed.
  Lemma of_E0 r : @safe_out T c E0 r -> safe_any_out r.
  Proof. unfold safe_out, safe_any_out. destruct (fst r); auto; apply Forall_WF0. Qed.
  Lemma to_E0 r : safe_any_out r -> @safe_out T c E0 r.
  Proof. unfold safe_out, safe_any_out. destruct (fst r); auto; apply Forall_WF0. Qed.

  Lemma any_on A p r (m : M ev A) k : Forall WF p ->
    (forall v, WF v -> okr (fun _ v' => WF v') (fun _ v' => WF v') (m v)) -> safe_any_out (m_on p r m k).
  Proof.
    intros H Hm. apply of_E0. apply (safe_on Hc comp0 Hai zero_d); [apply Forall_WF0; exact H|].
    intros v _ Hv. eapply okr_mono; [apply Hm; apply WF0; exact Hv|..]; intros; apply WF0; assumption.
  Qed.
  Lemma any_new p A (m : M ev A) : Forall WF p ->
    (forall v, WF v -> num v = 0 -> okr (fun _ v' => WF v') (fun _ v' => WF v') (m v)) -> safe_any_out (m_new p (build c m)).
  Proof.
    intros H Hm. apply of_E0. apply (safe_new Hc comp0 Hai zero_d); [apply Forall_WF0; exact H|].
    apply (build_safe Hc comp0 Hai zero_d).
    intros v Hv Hn. eapply okr_mono; [apply Hm; [apply WF0; exact Hv|exact Hn]|..]; intros; apply WF0; assumption.
  Qed.
  Lemma any_read A p r (f : ev -> outcome A) k : Forall WF p -> (forall v, f v <> UB) -> safe_any_out (m_read p r f k).
  Proof. intros H Hf. apply of_E0. apply (safe_read Hc comp0 Hai zero_d); [apply Forall_WF0; exact H|auto]. Qed.

  Theorem any_step p o : Forall WF p -> safe_op c E p o = true -> safe_any_out (m_step c E p o).
  Proof.
    intros H Hok. pose proof (proj2 (Forall_WF0 p) H) as H'.
    pose proof (step_safe Hc comp0 Hai zero_d (p := p) (o := o) H' Hok) as S0.
    destruct o; cbn [safe_op] in Hok;
      lazymatch type of S0 with
      | safe_out (m_step _ _ _ (OFromElem _ _)) => idtac
      | safe_out (m_step _ _ _ (OFromSlice _)) => idtac
      | safe_out (m_step _ _ _ (OFromIter _)) => idtac
      | safe_out (m_step _ _ _ (OPush _ _)) => idtac
      | safe_out (m_step _ _ _ (OInsert _ _ _)) => idtac
      | safe_out (m_step _ _ _ (OResize _ _ _)) => idtac
      | safe_out (m_step _ _ _ (OSet _ _ _)) => idtac
      | safe_out (m_step _ _ _ (OExtend _ _)) => idtac
      | safe_out (m_step _ _ _ (ORetain _ _)) => idtac
      | safe_out (m_step _ _ _ (OForEach _ _)) => idtac
      | safe_out (m_step _ _ _ (OAny _ _)) => idtac
      | safe_out (m_step _ _ _ (OAll _ _)) => idtac
      | _ => apply of_E0; cbn [m_step] in S0 |- *; exact S0
      end; clear S0; cbn [m_step].
    - apply any_new; [exact H|]. intros v Hv Hn0. apply any_with_value; [exact Hv|]. unfold usz in Hok. lia.
    - apply any_new; [exact H|]. intros v Hv _. apply any_extend; assumption.
    - apply any_new; [exact H|]. intros v Hv _. apply any_extend; assumption.
    - apply any_on; [exact H|]. intros v Hv. eapply okr_mono; [apply (any_push x Hv)|..].
      + intros u v' [G _]. exact G.
      + auto.
    - apply any_on; [exact H|]. intros v Hv. apply any_insert; exact Hv.
    - apply any_on; [exact H|]. intros v Hv. unfold resize. eapply okr_reads; [reflexivity|].
      destruct (N.ltb_spec (len v) n) as [Hlt|Hge].
      + eapply okr_lift. { apply (usub_ok Hc Hcomp). lia. } apply any_with_value; [exact Hv|]. unfold usz, len in *. lia.
      + unfold truncate, len in *. rewrite (proj2 (N.leb_gt _ _)) || idtac. destruct (n <? num v) eqn:Hx; [|exact Hv].
        cbn. apply any_set_len; [exact Hv|pose proof (wf_cover Hv); lia|pose proof (wf_num Hv); lia].
    - apply any_on; [exact H|]. intros v Hv. eapply okr_mono; [apply (any_set i x Hv)|..].
      + intros u v' [G _]. exact G.
      + intros k v' ->. exact Hv.
    - apply any_on; [exact H|]. intros v Hv. apply any_extend; assumption.
    - apply any_on; [exact H|]. intros v Hv. apply any_retain. exact Hv.
    - apply any_on; [exact H|]. intros v Hv. unfold for_each. eapply okr_reads; [reflexivity|]. apply any_for_each_loop; [exact Hv|unfold len; lia].
    - apply any_read; [exact H|]. intros v. apply any_not_UB.
    - apply any_read; [exact H|]. intros v. apply all_not_UB.
  Qed.

  Theorem any_run prog : forall p, Forall WF p -> safe_run c E p prog = true ->
    ~ In MUB (fst (m_run c E p prog)) /\ (~ In MAbort (fst (m_run c E p prog)) -> Forall WF (snd (m_run c E p prog))).
  Proof.
    induction prog as [|o prog IH]; intros p H Hok; cbn [m_run safe_run] in *; [cbn; auto|].
    apply andb_true_iff in Hok. destruct Hok as [Hok1 Hok2].
    pose proof (any_step H Hok1) as Hs. unfold safe_any_out in Hs.
    destruct (m_step c E p o) as [r p']. cbn [fst snd] in *.
    destruct r as [r| | |].
    - specialize (IH _ Hs Hok2). destruct (m_run c E p' prog) as [rs p'']. cbn in *. destruct IH as [I1 I2].
      split; [intros [G|G]; [discriminate|auto]|]. intros G. apply I2. intros K. apply G. auto.
    - specialize (IH _ Hs Hok2). destruct (m_run c E p' prog) as [rs p'']. cbn in *. destruct IH as [I1 I2].
      split; [intros [G|G]; [discriminate|auto]|]. intros G. apply I2. intros K. apply G. auto.
    - cbn. split; [intros [G|[]]; discriminate|]. intros G. exfalso. apply G. auto.
    - contradiction.
  Qed.

  Lemma any_Forall_valid p : Forall (valid c E) p <-> Forall WF p.
  Proof. split; apply Forall_impl; intros v; apply WF_valid. Qed.
  Lemma any_runs p prog : Forall (valid c E) p -> safe_run c E p prog = true ->
    ~ In MUB (fst (m_run c E p prog)) /\ (~ In MAbort (fst (m_run c E p prog)) -> Forall (valid c E) (snd (m_run c E p prog))).
  Proof.
    intros Hp Hok. apply any_Forall_valid in Hp. pose proof (any_run Hp Hok) as [G1 G2].
    split; [exact G1|]. intros Hn. apply any_Forall_valid. exact (G2 Hn).
  Qed.
  Lemma any_steps p o : Forall (valid c E) p -> safe_op c E p o = true ->
    fst (m_step c E p o) <> MUB /\ (fst (m_step c E p o) <> MAbort -> Forall (valid c E) (snd (m_step c E p o))).
  Proof.
    intros Hp Hok. apply any_Forall_valid in Hp. pose proof (any_step Hp Hok) as G. unfold safe_any_out in G.
    destruct (m_step c E p o) as [r p']. cbn [fst snd] in *. destruct r as [r| | |].
    - split; [discriminate|]. intros _. apply any_Forall_valid. exact G.
    - split; [discriminate|]. intros _. apply any_Forall_valid. exact G.
    - split; [discriminate|]. intros X. congruence.
    - contradiction.
  Qed.
End Any.
