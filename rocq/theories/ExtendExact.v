(** ExtendExact.v -- the stale elements that extend exposes, and when it reallocates. *)
From Verif Require Export ExactClaims StorageFacts.
From Coq Require Import ZifyBool ZifyNat ZifyN.
Open Scope N_scope.
Set Implicit Arguments.
Unset Strict Implicit.
Set Default Proof Using "Type*".

Section ExtendExact.
  Context {T : Type} {c : cfg} {E : enumlike T}.
  Hypothesis Hs : setting c E.
  Local Notation Hc := (s_ok Hs).
  Local Notation Hcomp := (s_comp Hs).
  Local Notation Hai := (s_alloc Hs).
  Local Notation Hd := (s_d Hs).
  Local Notation Hfd := (s_fd Hs).
  Local Notation B := (BITS E).
  Local Notation P := (EPB c E).
  Local Notation D := (map (to_d E)).
  Local Notation RC := (RC c E).
  Local Notation slotv := (slotv c E).

  Lemma RC_extend_known_stale cl n : forall v pre junk i sl (pan : bool) (l : list T),
    RC cl v (pre ++ junk) -> lenN pre = sl + i -> lenN junk = N.of_nat n -> lenN l < N.of_nat n ->
    okr (fun _ _ => False)
        (fun k v' => k = (if pan then PUser else PUnwrap) /\ RC cl v' (pre ++ D l ++ skipn (length l) junk))
        (extend_known c E n i sl pan l v).
  Proof.
    induction n as [|n IH]; intros v pre junk i sl pan l H Hpre Hj Hl; cbn [extend_known]; [lia|].
    destruct (lenN_cons_inv Hj) as [y [junk2 [-> Hj2]]].
    pose proof (RC_max Hc Hcomp Hd H) as Hsm. rewrite lenN_app, lenN_cons in Hsm.
    eapply okr_lift. { apply (uadd_ok Hc Hcomp). lia. }
    destruct l as [|x l].
    - destruct pan; cbn; (split; [reflexivity|exact H]).
    - rewrite lenN_cons in Hl. unfold set. eapply okr_bind_mono.
      + apply (RC_set_raw Hc Hcomp Hd (i := sl + i) (d := to_d E x) H); [|apply Hd].
        rewrite lenN_app, lenN_cons. lia.
      + intros u v1 H1. cbv beta in H1. rewrite <- Hpre, updN_app_r in H1.
        replace (pre ++ to_d E x :: junk2) with ((pre ++ [to_d E x]) ++ junk2) in H1
          by (rewrite <- app_assoc; reflexivity).
        eapply okr_mono.
        * eapply (IH v1 (pre ++ [to_d E x]) junk2 (i + 1) sl pan l H1); [|exact Hj2|lia].
          rewrite lenN_app. cbn. lia.
        * intros rest v' [].
        * intros k v' [G1 G2]. split; [exact G1|]. cbn [map length skipn]. rewrite <- app_assoc in G2. exact G2.
      + intros k s [].
  Qed.

  (** reserve keeps every slot it keeps the block of; new blocks are zero *)
  Lemma reserve_slots cl v ds k : RC cl v ds -> lenN ds + k <= usize_max c -> reserve_fits c E (lenN ds) k ->
    okr (fun _ v' => RC cl v' ds /\ vlen (storage v') = (lenN ds + k) / P + 1 /\
           forall i, i < P * vlen (storage v') -> slotv v' i = slotv v i)
        (fun p v' => p = PCapacity /\ v' = v) (reserve c E k v).
  Proof.
    intros H Hk Hfit. pose proof (RC_reserve Hc Hcomp Hd H Hk Hfit) as G.
    assert (K : okr (fun _ v' => forall i, i < P * vlen (storage v') -> slotv v' i = slotv v i) (fun _ _ => True) (reserve c E k v)).
    { unfold reserve. eapply okr_reads; [reflexivity|]. unfold len. rewrite (rc_num H).
      eapply okr_lift. { destruct (N.leb_spec (lenN ds + k) (usize_max c)) as [_|Hx]; [reflexivity|lia]. }
      eapply okr_lift. { apply (uadd_ok Hc Hcomp). apply (div_lt_usize Hc Hcomp Hd); [exact Hk|exact Hfit]. }
      pose proof (Ppos Hc Hcomp Hd) as HP.
      unfold on_storage, vec_resize. set (n := (lenN ds + k) / P + 1).
      destruct (N.leb_spec n (vlen (storage v))) as [Hle|Hgt].
      - cbn. intros i Hi. unfold EvFacts.slotv; cbn. unfold vlen in *; cbn in Hi. rewrite lenN_firstn in Hi.
        rewrite nthN_firstn; [reflexivity|]. rewrite N2Nat.id in *. rewrite N.min_l in Hi by lia. apply N.div_lt_upper_bound; lia.
      - destruct (vec_ensure_cases Hc Hcomp Hd n (wf_alloc (rc_wf H))) as [[cap' [-> _]]|[->| ->]]; cbn; [|exact I|exact I].
        intros i Hi. unfold EvFacts.slotv; cbn. unfold vlen in *; cbn in Hi. rewrite lenN_app, lenN_repeat in Hi.
        destruct (N.lt_ge_cases (i / P) (lenN (data (storage v)))) as [Hlt|Hge].
        + rewrite nthN_app_l by exact Hlt. reflexivity.
        + rewrite nthN_app_r by exact Hge. rewrite (nthN_ge_None Hge).
          rewrite BitFacts.nthN_repeat.
          * unfold slot. rewrite N.shiftr_0_l. apply N.land_0_l.
          * assert (i / P < lenN (data (storage v)) + N.of_nat (N.to_nat (n - lenN (data (storage v))))) by (apply N.div_lt_upper_bound; lia). lia. }
    destruct (reserve c E k v) as [[u|p| |] v']; cbn in G, K |- *; auto.
    destruct G as [G1 [_ G3]]. auto.
  Qed.

  (** set_len to a greater length exposes the slots *)
  Lemma RC_grow cl v ds n : RC cl v ds -> lenN ds <= n -> n <= P * vlen (storage v) -> n <= usize_max c ->
    RC cl (mkEv (storage v) n) (ds ++ map (fun i => slotv v (lenN ds + N.of_nat i)) (seq 0 (N.to_nat (n - lenN ds)))).
  Proof.
    intros H Hn1 Hn2 Hn3.
    set (junk := map _ _). assert (HL : lenN junk = n - lenN ds).
    { unfold junk, lenN. rewrite map_length, seq_length. lia. }
    destruct H as [[H1 H2 H3 H4 H8] H5 H6 H7]. constructor; cbn.
    - constructor; cbn; assumption.
    - rewrite lenN_app, HL. lia.
    - intros i d Hi. change (slotv (mkEv (storage v) n) i) with (slotv v i).
      destruct (N.lt_ge_cases i (lenN ds)) as [Hlt|Hge].
      + rewrite nthN_app_l in Hi by exact Hlt. apply H6; exact Hi.
      + rewrite nthN_app_r in Hi by exact Hge. pose proof (nthN_Some_lt Hi) as Hlt. rewrite HL in Hlt.
        unfold junk, nthN in Hi. rewrite nth_error_map in Hi.
        rewrite (nth_error_nth' _ O) in Hi by (rewrite seq_length; lia).
        rewrite seq_nth in Hi by lia. cbn in Hi. injection Hi as Hi. rewrite <- Hi. f_equal. lia.
    - intros Hcl w. apply (H7 Hcl w).
  Qed.

  Lemma extend_stale v l it : holds c E v l -> lenN l + lower it <= usize_max c -> reservable c E (lenN l) (lower it) ->
    lenN (items it) < lower it ->
    result (extend c E it v) (fun _ _ => False)
      (fun k v' => (k = PCapacity /\ v' = v) \/
         (k = (if ends_in_panic it then PUser else PUnwrap) /\ valid c E v' /\ len v' = lenN l + lower it /\
          forall j, j < lenN l + lower it -> get_raw c E j v' = Ret (Some
            match l_get (l ++ items it) j with
            | Some x => to_d E x
            | None => match l_get (storage_blocks v) (j / P) with
                      | Some b => field B b (j mod P)
                      | None => 0
                      end
            end))).
  Proof.
    intros H Hle Hfit Hlt. apply (holds_RC Hs) in H. apply result_okr.
    unfold extend. eapply okr_reads; [reflexivity|]. assert (Hlen : len v = lenN l) by (unfold len; rewrite (rc_num H); apply lenN_map). rewrite Hlen.
    eapply okr_bind_mono; [apply (reserve_slots (k := lower it) H); rewrite lenN_map; [exact Hle|exact Hfit]| |].
    2:{ intros k v' [-> ->]. left. auto. }
    intros u v1 [H1 [Hv Hsl]]. pose proof (rc_num H1) as Hn1. rewrite lenN_map in Hn1, Hv.
    pose proof (Ppos Hc Hcomp Hd) as HP.
    assert (Hlt2 : lenN l + lower it < P * vlen (storage v1)).
    { rewrite Hv. pose proof (N.mul_succ_div_gt (lenN l + lower it) P ltac:(lia)). lia. }
    eapply okr_reads. { rewrite Hn1. apply (uadd_ok Hc Hcomp). exact Hle. }
    unfold bind at 1, set_len.
    pose proof (RC_grow (n := lenN l + lower it) H1) as Hj. rewrite lenN_map in Hj.
    specialize (Hj ltac:(lia) ltac:(lia) Hle). replace (lenN l + lower it - lenN l) with (lower it) in Hj by lia.
    set (junk := map (fun i => slotv v1 (lenN l + N.of_nat i)) (seq 0 (N.to_nat (lower it)))) in Hj. assert (HL : lenN junk = lower it).
    { unfold junk, lenN. rewrite map_length, seq_length. lia. }
    eapply okr_bind_mono.
    { apply (RC_extend_known_stale (n := N.to_nat (lower it)) (i := 0) (sl := lenN l) (ends_in_panic it) (l := items it) Hj); rewrite ?lenN_map; lia. }
    { intros r v2 []. }
    intros k v' [-> G]. right. split; [reflexivity|]. split; [apply WF_valid; apply (rc_wf G)|].
    assert (Hn' : num v' = lenN l + lower it).
    { rewrite (rc_num G), !lenN_app, !lenN_map. unfold lenN in *. rewrite skipn_length. lia. }
    split; [exact Hn'|]. intros j Hjl. rewrite (get_raw_slot Hs (rc_wf G)) by lia. do 2 f_equal.
    apply (rc_slot G). rewrite app_assoc, <- map_app.
    destruct (N.lt_ge_cases j (lenN (l ++ items it))) as [L|L].
    - rewrite nthN_app_l by (rewrite lenN_map; exact L). rewrite nthN_map.
      destruct (nthN_lt_Some L) as [x Hx]. rewrite Hx. cbn. unfold nthN in Hx. unfold l_get. rewrite Hx. reflexivity.
    - rewrite nthN_app_r by (rewrite lenN_map; exact L). rewrite lenN_map.
      unfold l_get at 1. rewrite (proj2 (nth_error_None _ _)) by (unfold lenN in L; lia).
      rewrite lenN_app in L. rewrite nthN_skipn, lenN_app.
      unfold junk, nthN. rewrite nth_error_map. rewrite (nth_error_nth' _ O) by (rewrite seq_length; unfold lenN in *; lia).
      rewrite seq_nth by (unfold lenN in *; lia). cbn [option_map]. f_equal.
      match goal with |- slotv v1 ?x = _ => replace x with j by (unfold lenN in *; lia) end.
      rewrite Hsl by lia. unfold EvFacts.slotv.
      unfold l_get, storage_blocks, nthN. destruct (nth_error (data (storage v)) (N.to_nat (j / P))) as [b|]; [apply slot_field|reflexivity].
  Qed.

  (** reserve reallocates exactly from len + k = capacity on *)
  Lemma reserve_realloc v l k : holds c E v l -> reservable c E (lenN l) k -> capacity c E v <= lenN l + k -> lenN l + k < usize_max c ->
    result (reserve c E k v) (fun _ v' => holds c E v' l /\ capacity c E v < capacity c E v') (fun q v' => no_room q /\ v' = v).
  Proof.
    intros H Hr Hk Hu. pose proof (reserve_ok Hs H Hr) as G.
    destruct (reserve c E k v) as [[u|p| |] v'] eqn:Er; cbn in G |- *; auto. destruct G as [G1 _]. split; [exact G1|].
    pose proof (Ppos Hc Hcomp Hd) as HP. apply (holds_RC Hs) in H.
    pose proof (RC_reserve Hc Hcomp Hd (k := k) H ltac:(rewrite lenN_map; lia) ltac:(rewrite lenN_map; exact Hr)) as K.
    rewrite Er in K. cbn in K. destruct K as [K1 [_ K3]]. rewrite lenN_map in K3. pose proof (wf_cap (rc_wf K1)) as Hcap.
    apply N.le_lt_trans with (1 := Hk). unfold capacity. apply N.min_glb_lt; [|exact Hu].
    pose proof (N.mul_succ_div_gt (lenN l + k) P ltac:(lia)) as Hgt.
    apply N.lt_le_trans with (1 := Hgt). rewrite (N.mul_comm (vcap _)). apply N.mul_le_mono_l. lia.
  Qed.

  Lemma extend_as_reserve v l xs : holds c E v l -> reservable c E (lenN l) (lenN xs) ->
    result (extend c E (exact_iter xs) v) (fun _ v' => holds c E v' (l ++ xs) /\
      exists v1, reserve c E (lenN xs) v = (Ret tt, v1) /\ vcap (storage v') = vcap (storage v1)) (fun q v' => no_room q /\ v' = v).
  Proof.
    intros H Hr. pose proof (reserve_ok Hs H Hr) as G. pose proof H as H0. apply (holds_RC Hs) in H0.
    destruct (N.le_gt_cases (lenN l + lenN xs) (usize_max c)) as [Hle|Hgt].
    2:{ rewrite (RC_extend_overflow Hc Hcomp Hd (it := exact_iter xs) H0) by (rewrite lenN_map; exact Hgt).
        split; [right; reflexivity|reflexivity]. }
    unfold extend. cbn [lower items ends_in_panic exact_iter]. unfold bind at 1, reads at 1, bind at 1.
    pose proof (RC_reserve Hc Hcomp Hd (k := lenN xs) H0 ltac:(rewrite lenN_map; exact Hle) ltac:(rewrite lenN_map; exact Hr)) as K.
    destruct (reserve c E (lenN xs) v) as [[[]|p| |] v1]; cbn in G, K; try solve [cbn; auto]. destruct G as [G1 G2]. destruct K as [K1 [_ K3]].
    pose proof (holds_len Hs H) as Hn. pose proof (rc_num K1) as Hn1. rewrite lenN_map in Hn1, K3.
    unfold bind at 1, reads at 1. rewrite Hn1, (uadd_ok Hc Hcomp) by lia. unfold bind at 1, set_len at 1.
    pose proof (Ppos Hc Hcomp Hd) as HP.
    pose proof (RC_grow (n := lenN l + lenN xs) K1) as J. rewrite lenN_map in J.
    specialize (J ltac:(lia)). specialize (J ltac:(rewrite K3; pose proof (N.mul_succ_div_gt (lenN l + lenN xs) P ltac:(lia)); lia) Hle).
    replace (lenN l + lenN xs - lenN l) with (lenN xs) in J by lia.
    set (v2 := mkEv (storage v1) (lenN l + lenN xs)) in *.
    pose proof (RC_extend_known Hc Hcomp Hd (n := N.to_nat (lenN xs)) (i := 0) (sl := lenN l) false xs J) as L.
    specialize (L ltac:(rewrite lenN_map; lia)). specialize (L ltac:(unfold lenN; rewrite map_length, seq_length; lia)).
    pose proof (known_vcap Hs (N.to_nat (lenN xs)) 0 (lenN l) false xs v2) as [M1 M2].
    unfold bind. unfold len in *. rewrite Hn in *.
    destruct (extend_known c E (N.to_nat (lenN xs)) 0 (lenN l) false xs v2) as [[rest|k| |] v3]; cbn in L, M1, M2 |- *; try contradiction.
    2:{ destruct L as [_ [L _]]. lia. }
    destruct L as [_ [-> L]]. rewrite lenN_to_nat, skipn_all, firstn_all in *. cbn.
    assert (Hh : holds c E v3 (l ++ xs)) by (apply (RC_holds Hs (cl := false)); rewrite map_app; exact L).
    split; [exact Hh|]. exists v1. split; [reflexivity|exact M2].
  Qed.

  Lemma extend_realloc v l xs : holds c E v l -> reservable c E (lenN l) (lenN xs) -> capacity c E v <= lenN l + lenN xs -> lenN l + lenN xs < usize_max c ->
    result (extend c E (exact_iter xs) v) (fun _ v' => holds c E v' (l ++ xs) /\ capacity c E v < capacity c E v') (fun q v' => no_room q /\ v' = v).
  Proof.
    intros H Hr Hk Hu. pose proof (extend_as_reserve H Hr) as G. pose proof (reserve_realloc H Hr Hk Hu) as K.
    destruct (extend c E (exact_iter xs) v) as [[u|p| |] v']; unfold result in G |- *; auto.
    destruct G as [G1 [v1 [G2 G3]]]. rewrite G2 in K. cbn in K. destruct K as [_ K]. split; [exact G1|].
    unfold capacity in *. rewrite G3. exact K.
  Qed.

  Lemma reserve_when v l k : holds c E v l -> reservable c E (lenN l) k ->
    result (reserve c E k v)
      (fun _ v' => holds c E v' l /\ (lenN l + k < capacity c E v -> same_allocation v v') /\
                   (capacity c E v <= lenN l + k -> lenN l + k < usize_max c -> capacity c E v < capacity c E v'))
      (fun q v' => no_room q /\ v' = v /\ capacity c E v <= lenN l + k).
  Proof.
    intros H Hr. destruct (N.lt_ge_cases (lenN l + k) (capacity c E v)) as [Hk|Hk].
    - destruct (reserve_alloc Hs H Hk) as [v' [-> [G1 [G2 _]]]]. cbn. split; [exact G1|]. split; [auto|lia].
    - destruct (N.lt_ge_cases (lenN l + k) (usize_max c)) as [Hu|Hu].
      2:{ pose proof (reserve_ok Hs H Hr) as G. destruct (reserve c E k v) as [[u|p| |] v']; cbn in G |- *; auto.
          - destruct G as [G1 G2]. split; [exact G1|]. split; lia.
          - destruct G as [G1 G2]. auto. }
      pose proof (reserve_realloc H Hr Hk Hu) as G. destruct (reserve c E k v) as [[u|p| |] v']; cbn in G |- *; auto.
      + destruct G as [G1 G2]. split; [exact G1|]. split; [lia|auto].
      + destruct G as [G1 G2]. auto.
  Qed.
  Lemma extend_when v l xs : holds c E v l -> reservable c E (lenN l) (lenN xs) ->
    result (extend c E (exact_iter xs) v)
      (fun _ v' => holds c E v' (l ++ xs) /\ (lenN l + lenN xs < capacity c E v -> same_allocation v v') /\
                   (capacity c E v <= lenN l + lenN xs -> lenN l + lenN xs < usize_max c -> capacity c E v < capacity c E v'))
      (fun q v' => no_room q /\ v' = v /\ capacity c E v <= lenN l + lenN xs).
  Proof.
    intros H Hr. destruct (N.lt_ge_cases (lenN l + lenN xs) (capacity c E v)) as [Hk|Hk].
    - destruct (extend_alloc Hs (it := exact_iter xs) H) as [v' [-> [G1 G2]]]; [apply N.le_refl|reflexivity|exact Hk|].
      cbn. split; [exact G1|]. split; [auto|lia].
    - destruct (N.lt_ge_cases (lenN l + lenN xs) (usize_max c)) as [Hu|Hu].
      2:{ pose proof (extend_as_reserve H Hr) as G. destruct (extend c E (exact_iter xs) v) as [[u|p| |] v']; cbn in G |- *; auto.
          - destruct G as [G _]. split; [exact G|]. split; lia.
          - destruct G as [G1 G2]. auto. }
      pose proof (extend_realloc H Hr Hk Hu) as G. destruct (extend c E (exact_iter xs) v) as [[u|p| |] v']; cbn in G |- *; auto.
      + destruct G as [G1 G2]. split; [exact G1|]. split; [lia|auto].
      + destruct G as [G1 G2]. auto.
  Qed.
End ExtendExact.
