(** FillFacts.v -- how much storage the fill path (from_elem, resize) uses. *)
From Verif Require Export ClaimFacts2.
From Coq Require Import ZifyBool ZifyNat ZifyN.
Open Scope N_scope.
Set Implicit Arguments.
Unset Strict Implicit.
Set Default Proof Using "Type*".

Section Fill.
  Context {T : Type} {c : cfg} {E : enumlike T}.
  Local Notation B := (BITS E).
  Local Notation P := (EPB c E).
  Local Notation D := (map (to_d E)).
  Local Notation RC := (RC c E).
  Hypothesis Hs : setting c E.
  Local Notation Hc := (s_ok Hs).
  Local Notation Hcomp := (s_comp Hs).
  Local Notation Hai := (s_alloc Hs).
  Local Notation Hd := (s_d Hs).
  Local Notation Hfd := (s_fd Hs).

  (** vcap never decreases *)
  Definition vmono {A} (m : M ev A) : Prop := forall v, vcap (storage v) <= vcap (storage (snd (m v))).
  Lemma vmono_bind A A' (m : M ev A) (f : A -> M ev A') : vmono m -> (forall a, vmono (f a)) -> vmono (bind m f).
  Proof.
    intros H1 H2 v. unfold bind. specialize (H1 v). destruct (m v) as [[a|k| |] v']; cbn [snd] in *; try exact H1.
    specialize (H2 a v'). lia.
  Qed.
  Lemma vmono_lift A (o : outcome A) : vmono (lift o). Proof. intros v. reflexivity. Qed.
  Lemma vmono_reads A (g : ev -> outcome A) : vmono (reads g). Proof. intros v. reflexivity. Qed.
  Lemma vmono_set i x : vmono (set c E i x). Proof. intros v. rewrite (set_vcap Hs). reflexivity. Qed.
  Lemma ensure_mono n s s' : vec_ensure c n s = Ret s' -> vcap s <= vcap s'.
  Proof.
    unfold vec_ensure. destruct (N.leb_spec n (vcap s)) as [H|H]; [intros [= ->]; reflexivity|].
    destruct (_ <? _); [discriminate|]. destruct (_ <? _); [discriminate|]. intros [= <-]. cbn.
    pose proof (ok_grow Hc H). lia.
  Qed.
  Lemma vmono_resize n b : vmono (on_storage (vec_resize c n b)).
  Proof.
    intros v. unfold on_storage, vec_resize. destruct (_ <=? _); [reflexivity|].
    destruct (vec_ensure c n (storage v)) as [s|k| |] eqn:He; cbn; try reflexivity. apply (ensure_mono He).
  Qed.
  Lemma vmono_push x : vmono (push c E x).
  Proof.
    unfold push. apply vmono_bind.
    - intros v. unfold grow_if_needed. destruct (_ && _); [|reflexivity]. unfold on_storage, vec_push.
      destruct (vec_ensure c _ (storage v)) as [s|k| |] eqn:He; cbn; try reflexivity. apply (ensure_mono He).
    - intros _. apply vmono_bind; [apply vmono_reads|]. intros idx. apply vmono_bind; [apply vmono_lift|]. intros n1.
      apply vmono_bind; [intros v; reflexivity|]. intros _. apply vmono_set.
  Qed.
  Lemma vmono_known n : forall i sl pan l, vmono (extend_known c E n i sl pan l).
  Proof. intros i sl pan l v. rewrite (proj2 (known_vcap Hs n i sl pan l v)). reflexivity. Qed.
  Lemma vmono_rest pan l : vmono (extend_rest c E pan l).
  Proof.
    induction l as [|x l IH]; cbn [extend_rest]; [destruct pan; [apply vmono_lift|intros v; reflexivity]|].
    apply vmono_bind; [apply vmono_push|]. intros _. exact IH.
  Qed.
  Lemma vmono_extend it : vmono (extend c E it).
  Proof.
    unfold extend. apply vmono_bind; [apply vmono_reads|]. intros sl. apply vmono_bind.
    { unfold reserve. apply vmono_bind; [apply vmono_reads|]. intros n. apply vmono_bind; [apply vmono_lift|].
      intros d. apply vmono_bind; [apply vmono_lift|]. intros b. apply vmono_resize. }
    intros _. apply vmono_bind; [apply vmono_reads|]. intros n. apply vmono_bind; [intros v; reflexivity|].
    intros _. apply vmono_bind; [apply vmono_known|]. intros rest. apply vmono_rest.
  Qed.

  (** storage length is not changed by writing elements *)
  Lemma set_vlen i x v : vlen (storage (snd (set c E i x v))) = vlen (storage v).
  Proof.
    assert (Hu : forall l w (b : N), lenN (updN l w b) = lenN l) by (intros l w b; apply lenN_updN).
    unfold set, set_raw. destruct (_ <=? _); [reflexivity|].
    unfold set_raw_unchecked, block_index, bind, reads, lift, store_unchecked, load_unchecked, vlen.
    destruct (nthN _ _); [|reflexivity]. destruct (shl _ _ _); try reflexivity. destruct (_ <? _); [|reflexivity]. cbn [snd storage data].
    destruct (nthN _ _); cbn [snd storage data]; rewrite ?Hu; try reflexivity. destruct (shl _ _ _); cbn [snd storage data]; rewrite ?Hu; try reflexivity.
    destruct (_ <? _); cbn [snd storage data]; rewrite ?Hu; reflexivity.
  Qed.
  Lemma known_vlen n : forall i sl pan l v, vlen (storage (snd (extend_known c E n i sl pan l v))) = vlen (storage v).
  Proof.
    induction n as [|n IH]; intros i sl pan l v; cbn [extend_known]; [reflexivity|].
    unfold bind at 1, lift at 1. destruct (uadd c sl i) as [idx|k| |]; try reflexivity.
    destruct l as [|x l]; [destruct pan; reflexivity|].
    unfold bind. pose proof (set_vlen idx x v) as Hsv.
    destruct (set c E idx x v) as [[[]|k| |] v1]; cbn [fst snd] in *; try exact Hsv.
    rewrite IH. exact Hsv.
  Qed.
  Lemma extend_exact_vlen v l xs v' : holds c E v l -> 2 <= P \/ lenN l + lenN xs < usize_max c ->
    extend c E (exact_iter xs) v = (Ret tt, v') -> vlen (storage v') = (lenN l + lenN xs) / P + 1.
  Proof.
    intros H Hfit. pose proof (holds_len Hs H) as Hn. pose proof H as H0. apply (holds_RC Hs) in H.
    unfold extend, exact_iter. cbn [lower items ends_in_panic]. unfold bind at 1, reads at 1, bind at 1.
    destruct (N.le_gt_cases (lenN l + lenN xs) (usize_max c)) as [Hle|Hgt].
    2:{ rewrite (RC_reserve_overflow Hc Hcomp Hd H) by (rewrite lenN_map; exact Hgt). discriminate. }
    pose proof (RC_reserve Hc Hcomp Hd (k := lenN xs) H ltac:(rewrite lenN_map; exact Hle) ltac:(rewrite lenN_map; exact Hfit)) as G.
    destruct (reserve c E (lenN xs) v) as [[[]|k| |] v1]; cbn in G; try discriminate. destruct G as [G1 [G2 G3]]. rewrite lenN_map in G3.
    unfold bind at 1, reads at 1. destruct (uadd c (num v1) (lenN xs)) as [n|k| |]; try discriminate.
    unfold bind at 1, set_len at 1. unfold bind at 1.
    match goal with |- context [extend_known c E ?n ?i ?sl ?pan xs ?w] =>
      pose proof (known_vlen n i sl pan xs w) as Hk; destruct (extend_known c E n i sl pan xs w) as [[rest|k| |] v2] eqn:Ek; try discriminate end.
    cbn [snd storage] in Hk.
    assert (Hrest : rest = []).
    { assert (Hgen : forall m i sl (pan : bool) (ys : list T) w rest w', extend_known c E m i sl pan ys w = (Ret rest, w') -> rest = skipn m ys).
      { induction m as [|m IH]; intros i sl pan ys w r w'; cbn [extend_known skipn]; [unfold ret; congruence|].
        unfold bind at 1, lift at 1. destruct (uadd c sl i); try discriminate. destruct ys as [|y ys]; [destruct pan; discriminate|].
        unfold bind. destruct (set c E a y w) as [[[]|k| |] w1]; try discriminate. apply IH. }
      apply Hgen in Ek. subst rest. apply skipn_all2. unfold lenN. lia. }
    subst rest. cbn [extend_rest]. unfold ret. intros [= <-]. rewrite Hk. exact G3.
  Qed.

  (** The loop at mod.rs:513-516 adds count_blocks blocks count_blocks times. *)
  Lemma fill_allocates x n v v' : holds c E v [] -> 4 * P < n -> n <= usize_max c ->
    extend_with_value c E x n v = (Ret tt, v') ->
    ((n - P) / P) * ((n - P) / P) <= vcap (storage v') /\ vlen (storage v') = n / P + 1.
  Proof.
    intros H Hf Hn. pose proof H as H0. apply (holds_RC Hs) in H0.
    assert (Hlen : len v = 0) by (rewrite (holds_len Hs H); reflexivity).
    unfold extend_with_value. pose proof (Ppos Hc Hcomp Hd) as HP.
    rewrite (proj2 (N.leb_gt _ _) Hf). unfold bind at 1, reads at 1. rewrite Hlen.
    rewrite N.mod_0_l, N.sub_0_r by lia. unfold bind at 1.
    pose proof (RC_extend_exact Hc Hcomp Hd (l := repeat x (N.to_nat P)) H0) as G.
    assert (Hfit : 2 <= P \/ lenN (D []) + lenN (repeat x (N.to_nat P)) < usize_max c).
    { destruct (N.eq_dec P 1) as [H1|H1]; [right|left; lia]. rewrite lenN_repeat. cbn. lia. }
    specialize (G Hfit).
    destruct (extend c E (exact_iter (repeat x (N.to_nat P))) v) as [[[]|k| |] v1] eqn:E1; try discriminate. cbn in G.
    unfold bind at 1, lift at 1. rewrite (usub_ok Hc Hcomp) by lia.
    set (cb := (n - P) / P).
    assert (Hcb : P * cb <= n - P) by (apply N.mul_div_le; lia).
    assert (Hcb3 : 1 <= cb) by (apply N.div_le_lower_bound; lia).
    assert (Hcbm : n - P < P * (cb + 1)) by (unfold cb; pose proof (N.mul_succ_div_gt (n - P) P ltac:(lia)); lia).
    unfold bind at 1, lift at 1. rewrite (umul_ok Hc Hcomp) by lia.
    unfold bind at 1, lift at 1. rewrite (uadd_ok Hc Hcomp) by lia.
    unfold bind at 1, lift at 1. rewrite (usub_ok Hc Hcomp) by lia.
    set (last := n - (P + cb * P)).
    destruct (fill_pattern_ok Hc Hcomp Hd (Hd x)) as [bv [Hbv1 [Hbv2 Hbv3]]].
    unfold bind at 1, lift at 1. rewrite Hbv1. unfold bind at 1, reads at 1.
    unfold bind at 1.
    assert (HfxP : fixable c E (lenN (D [] ++ D (repeat x (N.to_nat P))))).
    { cbn [map app]. rewrite lenN_map, lenN_repeat, N2Nat.id. apply (aligned_fixable Hc Hcomp); [apply N.mod_same; lia|lia]. }
    pose proof (RC_fix_storage Hc Hcomp Hd HfxP G) as G2. destruct (fix_storage c E v1) as [[[]|k| |] v2]; try discriminate. cbn in G2.
    destruct G2 as [G2 [Hn2 [Hv2 _]]]. rewrite map_repeat, lenN_repeat, N2Nat.id in Hv2.
    assert (Hneed : need c E P = 1).
    { unfold need. replace (P + (P - 1)) with (P - 1 + 1 * P) by lia. rewrite N.div_add, N.div_small by lia. reflexivity. }
    rewrite Hneed in Hv2.
    pose proof (wf_alloc (rc_wf G2)) as Hal2. pose proof (wf_cap (rc_wf G2)) as Hcap2.
    unfold bind at 1. unfold on_storage at 1, vec_reserve.
    destruct (vec_ensure_cases Hc Hcomp Hd (vlen (storage v2) + (cb + (if 0 <? last then 1 else 0))) Hal2)
        as [[cap' [-> [K1 [K2 K3]]]]|[->| ->]]; try discriminate.
    set (v2' := mkEv (mkRvec (data (storage v2)) cap') (num v2)).
    assert (G2' : RC true v2' (D (repeat x (N.to_nat P))) \/ RC false v2' (D (repeat x (N.to_nat P)))).
    { right. unfold v2'. apply (RC_storage Hc Hcomp Hd); cbn [data vlen vcap]; try exact G2.
        - apply (wf_blocks (rc_wf G2)).
        - apply (RC_cover Hc Hcomp Hd G2).
        - unfold vlen in *; cbn. lia.
        - exact K3.
        - reflexivity.
        - discriminate. }
    assert (G3 : RC false v2' (D (repeat x (N.to_nat P)))).
    { destruct G2' as [G3|G3]; [apply (RC_weaken Hc Hcomp Hd G3)|exact G3]. }
    unfold bind at 1, fill_blocks at 1.
    match goal with |- context [for_range (N.to_nat cb) 0 ?f v2'] => set (body := f) end.
    assert (G4 : okr (fun _ v' => num v' = num v2' /\
           data (storage v') = data (storage v2') ++ repeat bv (N.to_nat cb * N.to_nat cb) /\
           vlen (storage v') <= vcap (storage v') /\ vcap (storage v') <= alloc_max c) (fun _ _ => True) (for_range (N.to_nat cb) 0 body v2')).
    { eapply okr_mono; [apply (fill_blocks_loop Hc Hcomp Hd (N.to_nat cb) (cb := cb) (bv := bv) Hai 0 (v := v2'))|..]; auto.
        - apply (wf_blocks (rc_wf G3)).
        - apply (wf_cap (rc_wf G3)).
        - lia. }
    destruct (for_range (N.to_nat cb) 0 body v2') as [[[]|k| |] v3]; try discriminate. cbn in G4. destruct G4 as [Q1 [Q3 [Q4 Q5]]].
    unfold bind at 1, lift at 1. cbv beta iota.
    pose proof (rc_num G) as HnG. rewrite map_repeat, lenN_repeat, N2Nat.id in HnG.
    unfold bind at 1, lift at 1, len. rewrite HnG, (uadd_ok Hc Hcomp) by lia. unfold bind at 1, set_len at 1.
    assert (Hbig : cb * cb <= vcap (storage v3)).
    { unfold vlen in Q4. rewrite Q3, lenN_app, lenN_repeat in Q4. lia. }
    assert (R : RC false (mkEv (storage v3) (P + cb * P)) (repeat (to_d E x) (N.to_nat P) ++ repeat (to_d E x) (N.to_nat (cb * P)))).
    { rewrite <- map_repeat.
      replace P with (lenN (D (repeat x (N.to_nat P)))) at 1 by (rewrite lenN_map, lenN_repeat; lia).
      apply (RC_fill_storage Hc Hcomp Hd (v := v2') (bv := bv) (m := (N.to_nat cb * N.to_nat cb)%nat)); auto.
      - rewrite lenN_map, lenN_repeat. unfold v2', vlen in *. cbn. rewrite Hv2. lia.
      - apply sq_le; exact Hcb3.
      - rewrite lenN_map, lenN_repeat, N2Nat.id. lia. }
    intros Hlast. split.
    - pose proof (@vmono_extend (exact_iter (repeat x (N.to_nat last))) (mkEv (storage v3) (P + cb * P))) as Hm.
      rewrite Hlast in Hm. cbn in Hm. lia.
    - assert (HhR : holds c E (mkEv (storage v3) (P + cb * P)) (repeat x (N.to_nat (P + cb * P)))).
      { apply (holds_RC Hs). rewrite map_repeat, N2Nat.inj_add, repeat_app. exact R. }
      rewrite (extend_exact_vlen HhR) with (2 := Hlast).
      + rewrite !lenN_repeat. f_equal. f_equal. unfold last. lia.
      + rewrite !lenN_repeat. pose proof (RC_cover Hc Hcomp Hd R) as Hx. rewrite lenN_app, !lenN_repeat in Hx.
        pose proof (wf_cap (rc_wf R)) as Hx2. pose proof (wf_alloc (rc_wf R)) as Hx3. pose proof (isize_blocks Hc Hcomp Hai) as Hx4. cbn [storage] in Hx, Hx2, Hx3.
        pose proof (W8 Hc Hcomp Hd).
        destruct (N.eq_dec P 1) as [Hp1|Hp1]; [right|left]; [|lia].
        assert (last = 0) by (unfold last; lia). rewrite Hp1 in *. lia.
  Qed.
  Lemma from_elem_blocks x n v : n <= usize_max c -> from_elem c E x n = Ret v -> vlen (storage v) = n / P + 1.
  Proof.
    intros Hn. unfold from_elem, build. destruct (extend_with_value c E x n (ev_new c)) as [[[]|k| |] v'] eqn:E1; try discriminate.
    intros [= <-]. destruct (new_ok Hs) as [H0 _].
    destruct (N.le_gt_cases n (4 * P)) as [Hle|Hgt]; [|apply (fill_allocates H0 Hgt Hn E1)].
    unfold extend_with_value in E1. rewrite (proj2 (N.leb_le _ _) Hle) in E1.
    rewrite (extend_exact_vlen H0) with (2 := E1); [rewrite lenN_repeat, N2Nat.id; reflexivity|].
    rewrite lenN_repeat. cbn. destruct (N.eq_dec P 1) as [H1|H1]; [right|left]; [|pose proof (Ppos Hc Hcomp Hd); lia].
    pose proof (usize_pow Hc Hcomp). destruct (ok_usize Hc) as [Hu|Hu]; rewrite Hu in *; lia.
  Qed.
End Fill.
