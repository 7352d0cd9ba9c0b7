(** ClaimFacts2.v -- more lemmas in the vocabulary of Claims.v: iteration, queries,
    capacity, raw accessors, extension with arbitrary iterators. *)
From Verif Require Export ClaimFacts.
From Coq Require Import ZifyBool ZifyNat ZifyN.
Open Scope N_scope.
Set Implicit Arguments.
Unset Strict Implicit.
Set Default Proof Using "Type*".

Section More.
  Context {T : Type} {c : cfg} {E : enumlike T}.
  Local Notation B := (BITS E).
  Local Notation P := (EPB c E).
  Local Notation D := (map (to_d E)).
  Local Notation RC := (RC c E).
  Hypothesis Hs : setting c E.
  Local Notation Hc := (s_ok Hs).
  Local Notation Hcomp := (s_comp Hs).
  Local Notation Hai := (s_alloc Hs).
  Local Notation Hd := (s_d Hs).
  Local Notation Hfd := (s_fd Hs).

  (** A valid vector whose hashed numbers are those of l holds l. *)
  Lemma holds_hash v l : valid c E v -> hash c E v = Ret (D l) -> holds c E v l.
  Proof.
    intros Hv Hh. apply WF_valid in Hv. pose proof (WF_RC Hc Hcomp Hd Hv) as HR.
    rewrite (RC_hash Hc Hcomp Hd HR) in Hh. injection Hh as Hh. rewrite Hh in HR. apply (holds_RC Hs). exact HR.
  Qed.

  (** ** C15 - C20, C24 *)
  Lemma to_vec_ok v l : holds c E v l -> to_vec c E v = Ret l.
  Proof. intros H. apply (holds_RC Hs) in H. apply (to_vec_lawful Hc Hcomp Hai Hd Hfd H). Qed.
  Lemma holds_inj v l l' : holds c E v l -> holds c E v l' -> l = l'.
  Proof. intros H H'. apply to_vec_ok in H. apply to_vec_ok in H'. congruence. Qed.
  Lemma iter_ok v l calls : holds c E v l -> m_iter c E v (into_iter v) calls = Ret (q_run l calls).
  Proof.
    intros H. apply (holds_RC Hs) in H. destruct (left_all Hc Hcomp Hai Hd Hfd H) as [H1 H2].
    rewrite (m_iter_ok Hc Hcomp Hai Hd Hfd H) by exact H2. rewrite H1. reflexivity.
  Qed.
  Lemma In_D x l : In (to_d E x) (D l) <-> In x l.
  Proof.
    split; [|apply in_map]. intros H. apply in_map_iff in H. destruct H as [y [H1 H2]].
    apply (disc_inj Hc Hcomp Hai Hd Hfd) in H1. subst y. exact H2.
  Qed.
  Lemma any_ok v l x : holds c E v l -> exists b, any c E x v = Ret b /\ (b = true <-> In x l).
  Proof.
    intros H. apply (holds_RC Hs) in H. destruct (RC_any Hc Hcomp Hd x H) as [b [H1 H2]].
    exists b. split; [exact H1|]. rewrite H2. apply In_D.
  Qed.
  Lemma all_ok v l x : holds c E v l -> exists b, all c E x v = Ret b /\ (b = true <-> forall y, In y l -> y = x).
  Proof.
    intros H. apply (holds_RC Hs) in H. destruct (RC_all Hc Hcomp Hd x H) as [b [H1 H2]].
    exists b. split; [exact H1|]. rewrite H2, Forall_forall. split.
    - intros G y Hy. apply (disc_inj Hc Hcomp Hai Hd Hfd). apply G. apply In_D. exact Hy.
    - intros G d Hin. apply in_map_iff in Hin. destruct Hin as [y [<- Hy]]. rewrite (G y Hy). reflexivity.
  Qed.
  Lemma eq_ok v w l m : holds c E v l -> holds c E w m -> exists b, eq c E v w = Ret b /\ (b = true <-> l = m).
  Proof.
    intros H H'. apply (holds_RC Hs) in H. apply (holds_RC Hs) in H'. destruct (RC_eq Hc Hcomp Hd H H') as [b [H1 H2]].
    exists b. split; [exact H1|]. rewrite H2. split; [apply (map_inj Hc Hcomp Hai Hd Hfd)|congruence].
  Qed.
  Lemma hash_ok v l : holds c E v l -> hash c E v = Ret (D l).
  Proof. intros H. apply (holds_RC Hs) in H. apply (RC_hash Hc Hcomp Hd H). Qed.
  Lemma clone_ok v l : holds c E v l -> builds (clone c v) (fun v' => holds c E v' l) (fun k => k = PCapacity).
  Proof.
    intros H. apply (holds_RC Hs) in H. eapply ook_mono; [apply (RC_clone Hc Hcomp Hd H)|..]; [|auto].
    intros v'. apply (holds_RC Hs).
  Qed.

  (** ** C25 - C27 *)
  Lemma valid_capacity v : valid c E v -> len v <= capacity c E v.
  Proof. intros H. apply WF_valid in H. apply (capacity_ge_len Hc Hcomp Hd H). Qed.
  Lemma capacity_blocks v : roomy c -> valid c E v -> capacity c E v = P * vcap (storage v).
  Proof. intros Hr H. apply WF_valid in H. apply (cap_small Hc Hcomp Hd Hr H). Qed.
  Lemma new_ok : holds c E (ev_new c) [] /\ tidy c E (ev_new c).
  Proof.
    pose proof (RC_new Hc Hcomp Hd) as H. split; [apply (RC_holds Hs (cl := true)); exact H|].
    apply (tidy_clean Hs). apply (rc_clean H eq_refl).
  Qed.
  Lemma with_capacity_ok n : n <= usize_max c ->
    builds (with_capacity c E n) (fun v => holds c E v [] /\ (roomy c \/ countable c E n -> n <= capacity c E v) /\ tidy c E v) (fun k => k = PCapacity).
  Proof.
    intros Hn. pose proof (RC_with_capacity Hc Hcomp Hd Hn) as G.
    pose proof (fun Hr => RC_with_capacity_roomy Hc Hcomp Hd Hr Hn) as G'.
    destruct (with_capacity c E n) as [v|k| |]; cbn in G |- *; auto.
    destruct G as [H1 [H2 _]]. split; [apply (RC_holds Hs (cl := true)); exact H1|].
    split; [intros [Hr|Hn']; [apply (G' Hr)|exact (H2 Hn')]|].
    apply (tidy_clean Hs). apply (rc_clean H1 eq_refl).
  Qed.
  Lemma reserve_ok v l k : holds c E v l -> reservable c E (lenN l) k ->
    result (reserve c E k v)
      (fun _ v' => holds c E v' l /\ lenN l + k <= capacity c E v')
      (fun q v' => no_room q /\ v' = v).
  Proof.
    intros H Hr. apply (holds_RC Hs) in H.
    destruct (N.le_gt_cases (lenN l + k) (usize_max c)) as [Hle|Hgt].
    2:{ rewrite (RC_reserve_overflow Hc Hcomp Hd H) by (rewrite lenN_map; exact Hgt). split; [right|]; reflexivity. }
    eapply okr_mono; [apply (RC_reserve Hc Hcomp Hd (k := k) H); rewrite lenN_map; [exact Hle|exact Hr]|..]; cbv beta.
    - intros u v' [H1 [H2 H3]]. rewrite lenN_map in H3. assert (Hh : holds c E v' l) by (apply (holds_RC Hs); exact H1).
      split; [exact Hh|]. unfold capacity. apply N.min_glb; [|exact Hle].
      pose proof (wf_cap (rc_wf H1)) as Hcap. rewrite H3 in Hcap. pose proof (Ppos Hc Hcomp Hd) as HP.
      pose proof (N.div_mod (lenN l + k) P ltac:(lia)). pose proof (N.mod_lt (lenN l + k) P ltac:(lia)). nia.
    - intros q v' [-> ->]. split; [left|]; reflexivity.
  Qed.
  (** reserve does not lose the elements when capacity suffices either: allocation kept *)
  Lemma reserve_alloc v l k : holds c E v l -> lenN l + k < capacity c E v ->
    exists v', reserve c E k v = (Ret tt, v') /\ holds c E v' l /\ same_allocation v v' /\ num v' = num v /\ lenN l + k <= P * vlen (storage v').
  Proof.
    intros H Hk. assert (Hcb : capacity c E v = N.min (P * vcap (storage v)) (usize_max c)) by (unfold capacity; lia). pose proof (holds_len Hs H) as Hn. unfold len in Hn.
    apply (holds_RC Hs) in H. pose proof (Ppos Hc Hcomp Hd) as HP. rewrite Hcb in Hk.
    pose proof (N.le_min_l (P * vcap (storage v)) (usize_max c)) as Hu1. pose proof (N.le_min_r (P * vcap (storage v)) (usize_max c)) as Hu2.
    pose proof (W8 Hc Hcomp Hd) as HW.
    assert (Hblk : (lenN l + k) / P + 1 <= vcap (storage v)).
    { assert ((lenN l + k) / P < vcap (storage v)) by (apply N.div_lt_upper_bound; lia). lia. }
    pose proof (RC_reserve Hc Hcomp Hd (k := k) H ltac:(rewrite lenN_map; lia) ltac:(rewrite lenN_map; right; lia)) as G.
    assert (Er : exists v', reserve c E k v = (Ret tt, v') /\ same_allocation v v').
    { unfold reserve, bind, reads, lift, len. rewrite Hn. rewrite (proj2 (N.leb_le _ _)) by lia.
      rewrite (uadd_ok Hc Hcomp) by (assert ((lenN l + k) / P <= lenN l + k) by (apply N.div_le_upper_bound; nia); lia).
      unfold on_storage, vec_resize, vec_ensure. destruct (N.leb_spec ((lenN l + k) / P + 1) (vlen (storage v))) as [H1|H1].
      - eexists. split; reflexivity.
      - rewrite (proj2 (N.leb_le _ _)) by exact Hblk. eexists. split; reflexivity. }
    destruct Er as [v' [E1 E2]]. rewrite E1 in G. cbn in G. destruct G as [G1 [G2 G3]]. exists v'. split; [exact E1|].
    split; [apply (holds_RC Hs); exact G1|]. split; [exact E2|]. split; [exact G2|]. rewrite lenN_map in G3. rewrite G3.
    pose proof (N.div_mod (lenN l + k) P ltac:(lia)). pose proof (N.mod_lt (lenN l + k) P ltac:(lia)). nia.
  Qed.
  Lemma shrink_ok v l : countable c E (lenN l) -> holds c E v l ->
    exists v', shrink_to_fit c E v = (Ret tt, v') /\ holds c E v' l /\
      vlen (storage v') = (lenN l + (P - 1)) / P /\
      vcap (storage v') = shrink c (vcap (storage v)) (vlen (storage v')) /\ (tidy c E v -> tidy c E v').
  Proof.
    intros Hfx H. pose proof (holds_RC Hs v l) as HR. pose proof H as H0. apply HR in H0. change (fixable c E (lenN l)) in Hfx. rewrite <- (lenN_map (to_d E)) in Hfx.
    assert (Hna : noab (shrink_to_fit c E)) by (unfold shrink_to_fit; apply noab_bind; [intros s; discriminate|intros u s; discriminate]).
    destruct (noalloc_ret Hna (RC_shrink_to_fit Hc Hcomp Hd Hfx H0)) as [[] [v' [E1 [G1 [G2 [G3 G4]]]]]].
    exists v'. split; [exact E1|]. split; [apply (holds_RC Hs); exact G1|]. rewrite lenN_map in G3, G4. rewrite G3 at 1. split.
    { reflexivity. }
    split; [rewrite G3; exact G4|]. intros Ht.
    destruct (noalloc_ret Hna (RC_shrink_to_fit Hc Hcomp Hd Hfx (holds_tidy_RC Hs H Ht))) as [[] [v'' [E2 [K1 _]]]].
    rewrite E1 in E2. injection E2 as <-. apply (tidy_clean Hs). apply (rc_clean K1 eq_refl).
  Qed.

  Lemma push_alloc v l x : holds c E v l -> lenN l < capacity c E v ->
    exists v', push c E x v = (Ret tt, v') /\ holds c E v' (l ++ [x]) /\ same_allocation v v'.
  Proof.
    intros H Hlt0. assert (Hlt : lenN l < P * vcap (storage v)) by (unfold capacity in Hlt0; lia). pose proof (holds_len Hs H) as Hn.
    pose proof (push_ok Hs x H) as G1. pose proof (push_storage Hs x H) as G2.
    assert (Hna : fst (push c E x v) <> Abort).
    { assert (Hg : fst (grow_if_needed c E v) <> Abort).
      { unfold grow_if_needed. destruct (_ && _) eqn:Hb; [|discriminate]. apply andb_true_iff in Hb. destruct Hb as [Hb1 Hb2].
        apply N.eqb_eq in Hb1. apply N.eqb_eq in Hb2.
        pose proof (Ppos Hc Hcomp Hd) as HP. apply (holds_RC Hs) in H.
        pose proof (RC_max Hc Hcomp Hd H) as Hsm. rewrite lenN_map in Hsm. pose proof (W8 Hc Hcomp Hd).
        rewrite (blocks_for_aligned Hc Hcomp) in Hb2 by (try exact Hb1; lia).
        unfold on_storage, vec_push, vec_ensure. rewrite (proj2 (N.leb_le _ _)); [discriminate|].
        rewrite <- Hb2, Hn. assert (lenN l / P < vcap (storage v)) by (apply N.div_lt_upper_bound; lia). lia. }
      unfold push, bind at 1. destruct (grow_if_needed c E v) as [[[]|k| |] v1]; cbn [fst] in Hg; try discriminate; [|contradiction].
      match goal with |- fst (?m v1) <> Abort => assert (Hna : noab m); [|apply Hna] end.
      apply noab_bind; [auto with noab|]. intros idx. apply noab_bind; [apply noab_lift; destruct (_ <=? _); discriminate|].
      intros n1. apply noab_bind; [auto with noab|]. intros _. apply noab_set. }
    destruct (push c E x v) as [[[]|k| |] v']; cbn in *; try contradiction.
    - exists v'. split; [reflexivity|]. split; [exact G1|]. apply G2. rewrite Hn. exact Hlt.
    - exfalso. rewrite Hn in G2. lia.
  Qed.
  Lemma capacity_same v v' : valid c E v -> valid c E v' -> same_allocation v v' -> capacity c E v' = capacity c E v.
  Proof. intros _ _ Hsame. unfold capacity. rewrite Hsame. reflexivity. Qed.
  Lemma rest_alloc items : forall v l, holds c E v l -> lenN l + lenN items <= capacity c E v ->
    exists v', extend_rest c E false items v = (Ret tt, v') /\ holds c E v' (l ++ items) /\ same_allocation v v'.
  Proof.
    induction items as [|x items IH]; intros v l H Hlt; cbn [extend_rest].
    - exists v. rewrite app_nil_r. split; [reflexivity|]. split; [exact H|reflexivity].
    - rewrite lenN_cons in Hlt. destruct (push_alloc x H) as [v1 [E1 [H1 A1]]]; [lia|].
      destruct (IH v1 (l ++ [x]) H1) as [v2 [E2 [H2 A2]]].
      { rewrite (capacity_same (proj1 H) (proj1 H1) A1), lenN_app. cbn. lia. }
      exists v2. unfold bind. rewrite E1. split; [exact E2|]. rewrite <- app_assoc in H2. split; [exact H2|].
      unfold same_allocation in *. congruence.
  Qed.
  Lemma set_vcap i x v : vcap (storage (snd (set c E i x v))) = vcap (storage v).
  Proof.
    unfold set, set_raw. destruct (_ <=? _); [reflexivity|]. unfold set_raw_unchecked, block_index, bind, reads, lift, store_unchecked, load_unchecked.
    destruct (nthN _ _); [|reflexivity]. destruct (shl _ _ _); try reflexivity. destruct (_ <? _); [|reflexivity]. cbn.
    destruct (nthN _ _); [|reflexivity]. destruct (shl _ _ _); try reflexivity. destruct (_ <? _); reflexivity.
  Qed.
  Lemma known_vcap n : forall i sl pan l v,
    fst (extend_known c E n i sl pan l v) <> Abort /\ vcap (storage (snd (extend_known c E n i sl pan l v))) = vcap (storage v).
  Proof.
    induction n as [|n IH]; intros i sl pan l v; cbn [extend_known]; [split; [discriminate|reflexivity]|].
    unfold bind at 1 3, lift at 1 3. pose proof (@nab_uadd c sl i) as Hna. unfold nab in Hna.
    destruct (uadd c sl i) as [idx|k| |]; try (split; [discriminate|reflexivity]); [|contradiction].
    destruct l as [|x l]; [destruct pan; split; try discriminate; reflexivity|].
    unfold bind. pose proof (@noab_set T c E idx x v) as Hns. pose proof (set_vcap idx x v) as Hsv.
    destruct (set c E idx x v) as [[[]|k| |] v1]; cbn [fst snd] in *; try (split; [discriminate|exact Hsv]); [|contradiction].
    destruct (IH (i + 1) sl pan l v1) as [I1 I2]. split; [exact I1|congruence].
  Qed.
  Lemma extend_alloc v l it : holds c E v l -> lower it <= lenN (items it) -> ends_in_panic it = false ->
    lenN l + lenN (items it) < capacity c E v ->
    exists v', extend c E it v = (Ret tt, v') /\ holds c E v' (l ++ items it) /\ same_allocation v v'.
  Proof.
    intros H Hh Hp Hlt. destruct (reserve_alloc (k := lower it) H) as [v1 [E1 [H1 [A1 [N1 C1]]]]]; [lia|].
    pose proof (holds_len Hs H) as Hn. pose proof (holds_len Hs H1) as Hn1. unfold len in Hn, Hn1.
    assert (Hcu : capacity c E v <= usize_max c) by (unfold capacity; lia).
    unfold extend. unfold bind at 1, reads at 1, bind at 1. rewrite E1. unfold bind at 1, reads at 1.
    rewrite Hn1, (uadd_ok Hc Hcomp) by lia. unfold bind at 1, set_len at 1.
    apply (holds_RC Hs) in H1.
    destruct (RC_set_len Hc Hcomp Hd (n := lenN l + lower it) H1) as [junk [J1 J2]]; [exact C1|lia|].
    rewrite firstn_lenN in J1 by (rewrite lenN_map; lia). rewrite lenN_map in J2.
    set (v2 := mkEv (storage v1) (lenN l + lower it)) in *.
    pose proof (RC_extend_known Hc Hcomp Hd (n := N.to_nat (lower it)) (i := 0) (sl := lenN l) (ends_in_panic it) (items it) J1
      ltac:(rewrite lenN_map; lia) ltac:(lia)) as G.
    pose proof (known_vcap (N.to_nat (lower it)) 0 (lenN l) (ends_in_panic it) (items it) v2) as [K1 K2].
    unfold bind at 1. unfold len. rewrite Hn.
    destruct (extend_known c E (N.to_nat (lower it)) 0 (lenN l) (ends_in_panic it) (items it) v2) as [[rest|k| |] v3]; cbn in G, K1, K2; try contradiction.
    2:{ destruct G as [_ [G _]]. lia. }
    destruct G as [_ [-> G]]. rewrite Hp.
    assert (Hh3 : holds c E v3 (l ++ firstn (N.to_nat (lower it)) (items it))).
    { apply (RC_holds Hs (cl := false)). rewrite map_app. exact G. }
    assert (A3 : same_allocation v v3) by (unfold same_allocation in *; congruence).
    destruct (@rest_alloc (skipn (N.to_nat (lower it)) (items it)) _ _ Hh3) as [v4 [E4 [H4 A4]]].
    { rewrite (capacity_same (proj1 H) (proj1 Hh3) A3). unfold lenN in *. rewrite app_length, firstn_length, skipn_length. lia. }
    exists v4. split; [exact E4|]. rewrite <- app_assoc, firstn_skipn in H4. split; [exact H4|]. unfold same_allocation in *. congruence.
  Qed.
End More.
