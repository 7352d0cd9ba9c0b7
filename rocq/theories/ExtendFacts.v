(** ExtendFacts.v -- extend, the block fill and resize on raw lists. *)
From Verif Require Export OpFacts.
From Coq Require Import ZifyBool ZifyNat ZifyN.
Open Scope N_scope.
Set Implicit Arguments.
Unset Strict Implicit.
Set Default Proof Using "Type*".

Lemma sq_le n : 1 <= n -> n <= N.of_nat (N.to_nat n * N.to_nat n).
Proof. intros H. rewrite Nat2N.inj_mul, N2Nat.id. nia. Qed.

Section Extend.
  Context {T : Type} {c : cfg} {E : enumlike T}.
  Local Notation B := (BITS E).
  Local Notation P := (EPB c E).
  Local Notation WF := (WF c E).
  Local Notation slotv := (slotv c E).
  Local Notation RC := (RC c E).
  Local Notation D := (map (to_d E)).

  Hypothesis Hc : cfg_ok c.
  Hypothesis Hcomp : compiles c E = true.
  Hypothesis Hd : forall x, to_d E x < 2 ^ B.

  Lemma RC_extend_known cl n : forall v pre junk i sl (pan : bool) (l : list T),
    RC cl v (pre ++ junk) -> lenN pre = sl + i -> lenN junk = N.of_nat n ->
    okr (fun rest v' => N.of_nat n <= lenN l /\ rest = skipn n l /\ RC cl v' (pre ++ D (firstn n l)))
        (fun k v' => k = (if pan then PUser else PUnwrap) /\ lenN l < N.of_nat n /\
           exists junk', lenN junk' = N.of_nat n - lenN l /\ RC cl v' (pre ++ D l ++ junk'))
        (extend_known c E n i sl pan l v).
  Proof.
    induction n as [|n IH]; intros v pre junk i sl pan l H Hpre Hj; cbn [extend_known].
    - cbn. rewrite (lenN_nil_inv Hj) in H. rewrite app_nil_r in *. split; [lia|split; [reflexivity|exact H]].
    - destruct (lenN_cons_inv Hj) as [y [junk2 [-> Hj2]]].
      pose proof (RC_max Hc Hcomp Hd H) as Hsm. rewrite lenN_app, lenN_cons in Hsm.
      eapply okr_lift. { apply (uadd_ok Hc Hcomp). lia. }
      destruct l as [|x l].
      + destruct pan; cbn; (split; [reflexivity|split; [lia|]]); exists (y :: junk2);
          (split; [rewrite Hj; lia|exact H]).
      + unfold set. eapply okr_bind_mono.
        * apply (RC_set_raw Hc Hcomp Hd (i := sl + i) (d := to_d E x) H); [|apply Hd].
          rewrite lenN_app, lenN_cons. lia.
        * intros u v1 H1. cbv beta in H1. rewrite <- Hpre, updN_app_r in H1.
          change (y :: junk2) with ([y] ++ junk2) in *.
          replace (pre ++ to_d E x :: junk2) with ((pre ++ [to_d E x]) ++ junk2) in H1
            by (rewrite <- app_assoc; reflexivity).
          eapply okr_mono.
          -- eapply (IH v1 (pre ++ [to_d E x]) junk2 (i + 1) sl pan l H1); [|exact Hj2].
             rewrite lenN_app. cbn. lia.
          -- intros rest v' [G1 [G2 G3]]. split; [rewrite lenN_cons; lia|split; [exact G2|]].
             cbn [firstn map]. rewrite <- app_assoc in G3. exact G3.
          -- intros k v' [G1 [G2 [j' [G3 G4]]]]. split; [exact G1|split; [rewrite lenN_cons; lia|]].
             exists j'. split; [rewrite lenN_cons; lia|].
             cbn [map]. rewrite <- app_assoc in G4. exact G4.
        * intros k s [].
  Qed.

  Lemma RC_extend_rest cl (pan : bool) (l : list T) : forall v ds, RC cl v ds ->
    okr (fun _ v' => pan = false /\ RC cl v' (ds ++ D l))
        (fun k v' => (k = PUser /\ pan = true /\ RC cl v' (ds ++ D l)) \/
                     (cap_panic k /\ exists l1 l2, l = l1 ++ l2 /\ RC cl v' (ds ++ D l1)))
        (extend_rest c E pan l v).
  Proof.
    induction l as [|x l IH]; intros v ds H; cbn [extend_rest].
    - destruct pan; cbn; rewrite app_nil_r; auto.
    - eapply okr_bind_mono; [apply (RC_push Hc Hcomp Hd x H)| |].
      + intros u v1 H1. cbv beta in H1. eapply okr_mono; [apply (IH v1 _ H1)|..].
        * intros u2 v' [G1 G2]. rewrite <- app_assoc in G2. split; assumption.
        * intros k v' [[G1 [G2 G3]]|[G1 [l1 [l2 [G2 G3]]]]].
          -- left. rewrite <- app_assoc in G3. auto.
          -- right. split; [exact G1|]. exists (x :: l1), l2. split; [cbn; congruence|].
             rewrite <- app_assoc in G3. exact G3.
      + intros k v' [[-> ->]|[-> [_ G]]]; right; (split; [unfold cap_panic; auto|]); exists [], (x :: l); cbn; rewrite app_nil_r; auto.
  Qed.

  (** What extend leaves behind in every case. *)
  Lemma RC_extend cl v ds (it : iter T) : RC cl v ds ->
    lenN ds + lower it <= usize_max c -> reserve_fits c E (lenN ds) (lower it) ->
    okr (fun _ v' => ends_in_panic it = false /\ lower it <= lenN (items it) /\ RC cl v' (ds ++ D (items it)))
        (fun k v' =>
           (cap_panic k /\ exists l1 l2, items it = l1 ++ l2 /\ RC cl v' (ds ++ D l1)) \/
           (k = PUser /\ ends_in_panic it = true /\ lower it <= lenN (items it)
              /\ RC cl v' (ds ++ D (items it))) \/
           (k = (if ends_in_panic it then PUser else PUnwrap) /\ lenN (items it) < lower it /\
              exists junk, lenN junk = lower it - lenN (items it) /\ RC cl v' (ds ++ D (items it) ++ junk)))
        (extend c E it v).
  Proof.
    intros H Hlen Hfit. unfold extend. eapply okr_reads; [reflexivity|]. unfold len. rewrite (rc_num H).
    eapply okr_bind_mono; [apply (RC_reserve Hc Hcomp Hd H Hlen Hfit)| |].
    - intros u v1 [H1 [Hn Hv]]. pose proof (rc_num H1) as Hn1.
      pose proof (Ppos Hc Hcomp Hd) as HP.
      assert (Hlt : lenN ds + lower it < P * vlen (storage v1)).
      { rewrite Hv. pose proof (N.mul_succ_div_gt (lenN ds + lower it) P ltac:(lia)). lia. }
      eapply okr_reads. { rewrite Hn1. apply (uadd_ok Hc Hcomp). exact Hlen. }
      unfold bind at 1, set_len.
      destruct (RC_set_len Hc Hcomp Hd H1 (n := lenN ds + lower it)) as [junk [Hj HLj]]; [lia|lia|].
      rewrite firstn_lenN in Hj by lia.
      eapply okr_bind_mono.
      + apply (RC_extend_known (n := N.to_nat (lower it)) (i := 0) (sl := lenN ds) (ends_in_panic it) (items it) Hj); [lia|lia].
      + intros rest v2 [G1 [-> G3]]. eapply okr_mono; [apply (RC_extend_rest (ends_in_panic it) (skipn (N.to_nat (lower it)) (items it)) G3)|..].
        * intros u2 v' [K1 K2]. split; [exact K1|split; [lia|]].
          rewrite <- app_assoc, <- map_app, firstn_skipn in K2. exact K2.
        * intros k v' [[K1 [K2 K3]]|[K1 [l1 [l2 [K2 K3]]]]].
          -- right; left. rewrite <- app_assoc, <- map_app, firstn_skipn in K3. split; [exact K1|split; [exact K2|split; [lia|exact K3]]].
          -- left. split; [exact K1|]. exists (firstn (N.to_nat (lower it)) (items it) ++ l1), l2.
             split; [rewrite <- app_assoc, <- K2, firstn_skipn; reflexivity|].
             rewrite map_app, app_assoc. exact K3.
      + intros k v' [K1 [K2 [j' [K3 K4]]]]. right; right. split; [exact K1|split; [lia|]].
        exists j'. split; [lia|exact K4].
    - intros k v' [-> ->]. left. split; [left; reflexivity|]. exists [], (items it). cbn. rewrite app_nil_r. auto.
  Qed.

  Lemma RC_extend_overflow cl v ds it : RC cl v ds -> usize_max c < lenN ds + lower it ->
    extend c E it v = (Panic PExpect, v).
  Proof.
    intros H Hk. unfold extend, bind at 1, reads at 1. unfold bind at 1.
    rewrite (RC_reserve_overflow Hc Hcomp Hd H Hk). reflexivity.
  Qed.

  (** exact iterators *)
  Lemma RC_extend_exact cl v ds l : RC cl v ds ->
    2 <= P \/ lenN ds + lenN l < usize_max c ->
    okr (fun _ v' => RC cl v' (ds ++ D l))
        (fun k v' => cap_panic k /\ RC cl v' ds)
        (extend c E (exact_iter l) v).
  Proof.
    intros H Hfit. destruct (N.le_gt_cases (lenN ds + lenN l) (usize_max c)) as [Hle|Hgt].
    - (* no element is written before the reserve succeeded, and then none fails *)
      unfold extend. eapply okr_reads; [reflexivity|]. unfold len. rewrite (rc_num H). cbn [lower exact_iter].
      eapply okr_bind_mono; [apply (RC_reserve Hc Hcomp Hd H Hle Hfit)| |].
      + intros u v1 [H1 [Hn Hv]]. pose proof (rc_num H1) as Hn1.
        pose proof (Ppos Hc Hcomp Hd) as HP.
        assert (Hlt : lenN ds + lenN l < P * vlen (storage v1)).
        { rewrite Hv. pose proof (N.mul_succ_div_gt (lenN ds + lenN l) P ltac:(lia)). lia. }
        eapply okr_reads. { rewrite Hn1. apply (uadd_ok Hc Hcomp). exact Hle. }
        unfold bind at 1, set_len.
        destruct (RC_set_len Hc Hcomp Hd H1 (n := lenN ds + lenN l)) as [junk [Hj HLj]]; [lia|lia|].
        rewrite firstn_lenN in Hj by lia.
        eapply okr_bind_mono.
        * apply (RC_extend_known (n := N.to_nat (lenN l)) (i := 0) (sl := lenN ds) (false) (l) Hj); [lia|lia].
        * intros rest v2 [G1 [-> G3]].
          rewrite lenN_to_nat, skipn_all, firstn_all in *. cbn. exact G3.
        * intros k v' [K1 [K2 _]]. exfalso. lia.
      + intros k v' [-> ->]. split; [left; reflexivity|exact H].
    - rewrite (RC_extend_overflow (it := exact_iter l) H) by exact Hgt. cbn.
      split; [right; reflexivity|exact H].
  Qed.

  (** the fill pattern repeats the element in every slot *)
  Lemma fill_pattern_spec fuel : forall b i d, d < 2 ^ B ->
    (forall m, N.testbit b m = (m <? N.min i (W c)) && N.testbit d (m mod B)) ->
    i mod B = 0 -> B <= i -> W c <= i * 2 ^ N.of_nat fuel ->
    exists p, fill_pattern c (S fuel) b i = Ret p /\
      forall m, N.testbit p m = (m <? W c) && N.testbit d (m mod B).
  Proof.
    pose proof (BITS_range Hc Hcomp) as [HB1 [HB2 HB3]].
    induction fuel as [|f IH]; intros b i d Hdl Hb Hi HiB Hf.
    - cbn [fill_pattern]. change (2 ^ N.of_nat 0) with 1 in Hf.
      destruct (N.ltb_spec i (W c)) as [Hlt|Hge]; [lia|].
      exists b. split; [reflexivity|]. intros m. rewrite Hb. rewrite N.min_r by lia. reflexivity.
    - cbn [fill_pattern]. destruct (N.ltb_spec i (W c)) as [Hlt|Hge].
      + rewrite (shl_ok Hc Hcomp) by exact Hlt. cbn [obind].
        apply (IH _ (i * 2) d Hdl).
        * intros m. rewrite N.lor_spec, testbit_mod_pow2, testbit_shiftl, !Hb.
          assert (Hmod : i <= m -> (m - i) mod B = m mod B).
          { intros Him. replace m with ((m - i) + (i / B) * B) at 2.
            - rewrite N.mod_add by lia. reflexivity.
            - pose proof (N.div_mod i B ltac:(lia)) as Hx. rewrite Hi in Hx. lia. }
          rewrite N.min_l by lia. clear IH Hf Hb Hdl Hi.
          destruct (N.lt_ge_cases m i) as [Hmi|Hmi].
          { rewrite (proj2 (N.ltb_lt m i)), (proj2 (N.leb_gt i m)), (proj2 (N.ltb_lt m (N.min (i * 2) (W c)))) by lia.
            rewrite andb_false_r, orb_false_r. reflexivity. }
          rewrite (proj2 (N.ltb_ge m i)), (proj2 (N.leb_le i m)), Hmod by lia. cbn [andb orb].
          destruct (N.lt_ge_cases m (W c)) as [HmW|HmW].
          { rewrite (proj2 (N.ltb_lt m (W c))) by lia. cbn [andb].
            destruct (N.lt_ge_cases m (i * 2)) as [Hm2|Hm2].
            - rewrite (proj2 (N.ltb_lt (m - i) i)), (proj2 (N.ltb_lt m (N.min (i * 2) (W c)))) by lia. reflexivity.
            - rewrite (proj2 (N.ltb_ge (m - i) i)), (proj2 (N.ltb_ge m (N.min (i * 2) (W c)))) by lia. reflexivity. }
          rewrite (proj2 (N.ltb_ge m (W c))), (proj2 (N.ltb_ge m (N.min (i * 2) (W c)))) by lia. reflexivity.
        * rewrite N.mul_mod, Hi, N.mul_0_l by lia. apply N.mod_0_l. lia.
        * lia.
        * rewrite Nat2N.inj_succ, N.pow_succ_r' in Hf. lia.
      + exists b. split; [reflexivity|]. intros m. rewrite Hb. rewrite N.min_r by lia. reflexivity.
  Qed.

  Lemma fill_pattern_ok d : d < 2 ^ B ->
    exists p, fill_pattern c 9 (cast_block c d) B = Ret p /\ p < 2 ^ W c /\
      forall k, k < P -> slot E p k = d.
  Proof.
    intros Hdl. pose proof (BITS_range Hc Hcomp) as [HB1 [HB2 HB3]].
    rewrite (castB Hc Hcomp) by exact Hdl.
    destruct (@fill_pattern_spec 8%nat d B d Hdl) as [p [Hp1 Hp2]].
    - intros m. destruct (N.ltb_spec m (N.min B (W c))) as [Hm|Hm]; cbn [andb].
      + rewrite N.mod_small by lia. reflexivity.
      + apply (lt_pow2_high Hdl). lia.
    - apply N.mod_same. lia.
    - lia.
    - change (2 ^ N.of_nat 8) with 256.
      destruct (W_cases Hc Hcomp) as [H|[H|[H|[H|H]]]]; lia.
    - exists p. split; [exact Hp1|split].
      + apply lt_pow2_testbit. intros m Hm. rewrite Hp2.
        destruct (N.ltb_spec m (W c)); [lia|reflexivity].
      + intros k Hk. apply N.bits_inj; intros m. rewrite slot_testbit, Hp2.
        pose proof (slot_off Hc Hcomp Hk) as Hoff.
        destruct (N.ltb_spec m B) as [Hm|Hm]; cbn [andb].
        * destruct (N.ltb_spec (k * B + m) (W c)); [|lia]. cbn [andb].
          rewrite N.add_comm, N.mod_add, N.mod_small by lia. reflexivity.
        * symmetry. apply (lt_pow2_high Hdl Hm).
  Qed.

  (** count_blocks rounds of growing by count_blocks *)
  Lemma fill_blocks_loop n cb bv : alloc_isize c -> forall start v,
    Forall (fun b => b < 2 ^ W c) (data (storage v)) -> vlen (storage v) <= vcap (storage v) ->
    vcap (storage v) <= alloc_max c -> 1 <= cb -> cb <= alloc_max c -> bv < 2 ^ W c ->
    okr (fun _ v' => num v' = num v /\
           data (storage v') = data (storage v) ++ repeat bv (n * N.to_nat cb) /\
           vlen (storage v') <= vcap (storage v') /\ vcap (storage v') <= alloc_max c)
        (fun k v' => k = PCapacity /\ num v' = num v /\ (exists j, (j <= n * N.to_nat cb)%nat /\
           data (storage v') = data (storage v) ++ repeat bv j) /\
           vlen (storage v') <= vcap (storage v') /\ vcap (storage v') <= alloc_max c)
        (for_range n start (fun _ =>
          storage_len <- reads (fun v => Ret (vlen (storage v))) ;;
          n <- lift (uadd c storage_len cb) ;;
          on_storage (vec_resize c n bv)) v).
  Proof.
    intros Hbnd. induction n as [|n IH]; intros start v Hb Hcap Hal Hcb Hcb2 Hbv; cbn [for_range].
    - cbn. rewrite app_nil_r. auto.
    - apply okr_bind. eapply okr_reads; [reflexivity|].
      eapply okr_lift.
      { apply (uadd_ok Hc Hcomp). pose proof (isize_blocks Hc Hcomp Hbnd). lia. }
      unfold on_storage, vec_resize.
      destruct (N.leb_spec (vlen (storage v) + cb) (vlen (storage v))); [lia|].
      destruct (vec_ensure_cases Hc Hcomp Hd (vlen (storage v) + cb) Hal) as [[cap' [-> [H1 [H2 H3]]]]|[->| ->]]; cbn;
        [| |exact I].
      + replace (N.to_nat (vlen (storage v) + cb - vlen (storage v))) with (N.to_nat cb) by lia.
        eapply okr_mono; [apply IH; cbn|..]; cbn.
        * apply Forall_app; split; [exact Hb|apply Forall_repeat; exact Hbv].
        * unfold vlen in *; cbn. rewrite lenN_app, lenN_repeat. lia.
        * exact H3.
        * exact Hcb.
        * exact Hcb2.
        * exact Hbv.
        * intros u v' [G1 [G2 G3]]. split; [exact G1|split; [|exact G3]].
          rewrite G2, <- app_assoc, <- repeat_app. reflexivity.
        * intros k v' [G1 [G2 [[j [G3 G4]] G5]]]. split; [exact G1|split; [exact G2|split; [|exact G5]]].
          exists (N.to_nat cb + j)%nat. split; [lia|]. rewrite G4, <- app_assoc, <- repeat_app. reflexivity.
      + split; [reflexivity|split; [reflexivity|split; [|split; assumption]]].
        exists O. split; [lia|]. cbn. rewrite app_nil_r. reflexivity.
  Qed.

  Lemma RC_fill_storage v v3 ds d bv m cb : RC false v ds ->
    lenN ds = P * vlen (storage v) ->
    data (storage v3) = data (storage v) ++ repeat bv m ->
    vlen (storage v3) <= vcap (storage v3) -> vcap (storage v3) <= alloc_max c ->
    bv < 2 ^ W c -> (forall k, k < P -> slot E bv k = d) -> cb <= N.of_nat m -> lenN ds + cb * P <= usize_max c ->
    RC false (mkEv (storage v3) (lenN ds + cb * P)) (ds ++ repeat d (N.to_nat (cb * P))).
  Proof.
    intros H Hal Hdat Hcap Hmax Hbv Hslot Hcb Hlim. pose proof (Ppos Hc Hcomp Hd) as HP.
    assert (Hlen : vlen (storage v3) = vlen (storage v) + N.of_nat m).
    { unfold vlen. rewrite Hdat, lenN_app, lenN_repeat. reflexivity. }
    constructor.
    - constructor; cbn; try assumption.
      + rewrite Hdat. apply Forall_app; split; [apply (wf_blocks (rc_wf H))|apply Forall_repeat; exact Hbv].
      + rewrite Hlen. nia.
    - cbn. rewrite lenN_app, lenN_repeat. lia.
    - intros i e Hi. unfold EvFacts.slotv; cbn. rewrite Hdat.
      destruct (N.lt_ge_cases i (lenN ds)) as [Hlt|Hge].
      + rewrite nthN_app_l in Hi by exact Hlt. rewrite <- (rc_slot H Hi). unfold EvFacts.slotv.
        rewrite nthN_app_l; [reflexivity|]. apply (divP_lt Hc Hcomp). unfold vlen in Hal. lia.
      + pose proof (nthN_Some_lt Hi) as Hlt. rewrite lenN_app, lenN_repeat in Hlt.
        rewrite nthN_app_r in Hi by exact Hge. apply nthN_repeat_inv in Hi. subst e.
        assert (Hq : vlen (storage v) <= i / P) by (apply N.div_le_lower_bound; lia).
        assert (Hq2 : i / P < vlen (storage v) + N.of_nat m) by (apply N.div_lt_upper_bound; nia).
        rewrite nthN_app_r by exact Hq. rewrite nthN_repeat by (unfold vlen in *; lia).
        apply Hslot. apply N.mod_lt. lia.
    - discriminate.
  Qed.

  Lemma RC_extend_with_value cl v ds x count : alloc_isize c -> RC cl v ds -> lenN ds + count <= usize_max c ->
    okr (fun _ v' => RC (cl && (count <=? 4 * P)) v' (ds ++ repeat (to_d E x) (N.to_nat count)))
        (fun k v' => cap_panic k /\ exists n, n <= count /\ RC false v' (ds ++ repeat (to_d E x) (N.to_nat n)))
        (extend_with_value c E x count v).
  Proof.
    intros Hbnd H Hcount. unfold extend_with_value. pose proof (Ppos Hc Hcomp Hd) as HP.
    pose proof (isize_blocks Hc Hcomp Hbnd) as Hbb. pose proof (RC_cover Hc Hcomp Hd H) as Hcov0.
    pose proof (wf_cap (rc_wf H)) as Hcap0. pose proof (wf_alloc (rc_wf H)) as Hal0. pose proof (usize_max_big Hc Hcomp) as Hbig.
    destruct (N.leb_spec count (4 * P)) as [Hs|Hf].
    - rewrite andb_true_r. eapply okr_mono; [apply (RC_extend_exact (l := repeat x (N.to_nat count)) H)|..].
      + destruct (N.eq_dec P 1) as [H1|H1]; [right|left]; [|lia]. rewrite lenN_repeat. lia.
      + intros u v' G. cbv beta in G. rewrite map_repeat in G. exact G.
      + intros k v' [G1 G2]. split; [exact G1|]. exists 0. split; [lia|]. cbn. rewrite app_nil_r.
        apply (RC_weaken Hc Hcomp Hd) with cl. exact G2.
    - rewrite andb_false_r. eapply okr_reads; [reflexivity|]. unfold len. rewrite (rc_num H).
      set (d := to_d E x). set (first := P - lenN ds mod P).
      assert (Hfirst : 1 <= first <= P).
      { unfold first. pose proof (N.mod_lt (lenN ds) P ltac:(lia)). lia. }
      eapply okr_bind_mono.
      { apply (RC_extend_exact (l := repeat x (N.to_nat first)) H). rewrite lenN_repeat.
        destruct (N.eq_dec P 1) as [H1|H1]; [right|left]; lia. }
      2:{ intros k v' [G1 G2]. split; [exact G1|]. exists 0. split; [lia|]. cbn. rewrite app_nil_r.
          apply (RC_weaken Hc Hcomp Hd) with cl. exact G2. }
      intros u v1 G. cbv beta in G. rewrite map_repeat in G. fold d in G.
      set (ds1 := ds ++ repeat d (N.to_nat first)) in *.
      assert (Hl1 : lenN ds1 = lenN ds + first) by (unfold ds1; rewrite lenN_app, lenN_repeat; lia).
      assert (Hal1 : lenN ds1 = P * (lenN ds / P + 1)).
      { rewrite Hl1. unfold first. pose proof (N.div_mod (lenN ds) P ltac:(lia)).
        pose proof (N.mod_lt (lenN ds) P ltac:(lia)). lia. }
      set (ce := count - first). set (cb := ce / P).
      eapply okr_lift. { apply (usub_ok Hc Hcomp). lia. } fold ce. cbv zeta. fold cb.
      assert (Hcb : P * cb <= ce) by (apply N.mul_div_le; lia).
      assert (Hcb3 : 1 <= cb) by (apply N.div_le_lower_bound; lia).
      assert (Hcbm : ce < P * (cb + 1)).
      { unfold cb. pose proof (N.mul_succ_div_gt ce P ltac:(lia)). lia. }
      eapply okr_lift. { apply (umul_ok Hc Hcomp). lia. }
      eapply okr_lift. { apply (uadd_ok Hc Hcomp). lia. }
      eapply okr_lift. { apply (usub_ok Hc Hcomp). lia. }
      set (last := count - (first + cb * P)).
      destruct (fill_pattern_ok (Hd x)) as [bv [Hbv1 [Hbv2 Hbv3]]].
      eapply okr_lift; [exact Hbv1|].
      eapply okr_reads; [reflexivity|]. rewrite (rc_num G).
      eapply okr_bind_mono; [apply (RC_fix_storage Hc Hcomp Hd); [|exact G]| |intros k s []].
      { apply (aligned_fixable Hc Hcomp); [|apply (RC_max Hc Hcomp Hd G)]. rewrite Hal1, N.mul_comm. apply N.mod_mul. lia. }
      intros u2 v2 [G2 [Hn2 [Hv2 _]]].
      assert (Hneed : need c E (lenN ds1) = lenN ds / P + 1).
      { pose proof (need_spec Hc Hcomp (lenN ds1)) as [Hx1 Hx2].
        specialize (Hx2 (lenN ds / P + 1)). rewrite Hal1 in Hx1, Hx2.
        specialize (Hx2 (N.le_refl _)). apply N.mul_le_mono_pos_l in Hx1; [|lia]. rewrite Hal1. lia. }
      rewrite Hneed in Hv2.
      pose proof (wf_alloc (rc_wf G2)) as Hal2. pose proof (wf_cap (rc_wf G2)) as Hcap2.
      unfold bind at 1. unfold on_storage at 1, vec_reserve.
      destruct (vec_ensure_cases Hc Hcomp Hd (vlen (storage v2) + (cb + (if 0 <? last then 1 else 0))) Hal2)
        as [[cap' [-> [K1 [K2 K3]]]]|[->| ->]]; cbn [okr];
        [| |exact I].
      2:{ split; [left; reflexivity|]. exists first. split; [lia|].
          apply (RC_weaken Hc Hcomp Hd) with cl. exact G2. }
      set (v2' := mkEv (mkRvec (data (storage v2)) cap') (num v2)).
      assert (G2' : RC cl v2' ds1).
      { unfold v2'. apply (RC_storage Hc Hcomp Hd); cbn; try exact G2.
        - apply (wf_blocks (rc_wf G2)).
        - apply (RC_cover Hc Hcomp Hd G2).
        - unfold vlen in *; cbn. lia.
        - exact K3.
        - reflexivity.
        - intros -> w b Hw. apply (RC_waste Hc Hcomp Hd G2 Hw). }
      unfold fill_blocks.
      eapply okr_bind_mono.
      { apply (fill_blocks_loop (N.to_nat cb) (cb := cb) (bv := bv) Hbnd 0 (v := v2')).
        - apply (wf_blocks (rc_wf G2')).
        - apply (wf_cap (rc_wf G2')).
        - apply (wf_alloc (rc_wf G2')).
        - exact Hcb3.
        - lia.
        - exact Hbv2. }
      2:{ intros k v' [-> [Q1 [[j [Q2 Q3]] [Q4 Q5]]]]. split; [left; reflexivity|]. exists first. split; [lia|].
          assert (R := RC_fill_storage (v := v2') (v3 := v') (ds := ds1) (d := d) (bv := bv) (m := j) (cb := 0)).
          rewrite N.mul_0_l, N.add_0_r in R. cbn [N.to_nat repeat] in R. rewrite app_nil_r in R.
          replace v' with (mkEv (storage v') (lenN ds1)).
          - apply R; auto; [|rewrite Hal1, <- Hv2; reflexivity|apply N.le_0_l|apply (RC_max Hc Hcomp Hd G)].
            apply (RC_weaken Hc Hcomp Hd) with cl. exact G2'.
          - destruct v' as [s' n']; cbn in *. f_equal. rewrite Q1. symmetry; apply (rc_num G2). }
      intros u3 v3 [Q1 [Q3 [Q4 Q5]]].
      assert (R : RC false (mkEv (storage v3) (lenN ds1 + cb * P)) (ds1 ++ repeat d (N.to_nat (cb * P)))).
      { apply (RC_fill_storage (v := v2') (bv := bv) (m := (N.to_nat cb * N.to_nat cb)%nat)); auto.
        - apply (RC_weaken Hc Hcomp Hd) with cl. exact G2'.
        - rewrite Hal1, <- Hv2. reflexivity.
        - apply sq_le; exact Hcb3.
        - lia. }
      eapply okr_lift. { apply (umul_ok Hc Hcomp). lia. }
      eapply okr_lift.
      { apply (uadd_ok Hc Hcomp). pose proof (RC_max Hc Hcomp Hd R) as Hx.
        rewrite lenN_app, lenN_repeat in Hx. lia. }
      unfold bind at 1, set_len.
      eapply okr_mono; [apply (RC_extend_exact (l := repeat x (N.to_nat last)) R)|..].
      + rewrite lenN_repeat.
        destruct (N.eq_dec P 1) as [H1|H1]; [right|left]; [|lia].
        assert (last = 0) by (unfold last; lia).
        pose proof (RC_cover Hc Hcomp Hd R) as Hx. pose proof (wf_cap (rc_wf R)) as Hx2. pose proof (wf_alloc (rc_wf R)) as Hx3.
        cbn [storage] in *. assert (P * vlen (storage v3) = vlen (storage v3)) as Hx4 by (rewrite H1; apply N.mul_1_l). lia.
      + intros u4 v' K. cbv beta in K. rewrite map_repeat in K. fold d in K. unfold ds1 in K.
        rewrite <- !app_assoc, <- !repeat_app in K.
        replace (N.to_nat first + (N.to_nat (cb * P) + N.to_nat last))%nat with (N.to_nat count) in K
          by (unfold last; lia).
        exact K.
      + intros k v' [Z1 Z2]. split; [exact Z1|]. exists (first + cb * P). split; [lia|].
        unfold ds1 in Z2. rewrite <- app_assoc, <- repeat_app in Z2.
        replace (N.to_nat (first + cb * P)) with (N.to_nat first + N.to_nat (cb * P))%nat by lia. exact Z2.
  Qed.
End Extend.
