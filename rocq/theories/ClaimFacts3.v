(** ClaimFacts3.v -- extension by arbitrary iterators, constructors, raw accessors. *)
From Verif Require Export FillFacts.
From Coq Require Import ZifyBool ZifyNat ZifyN.
Open Scope N_scope.
Set Implicit Arguments.
Unset Strict Implicit.
Set Default Proof Using "Type*".

Section Extend.
  Context {T : Type} {c : cfg} {E : enumlike T}.
  Local Notation B := (BITS E).
  Local Notation P := (EPB c E).
  Local Notation D := (map (to_d E)).
  Local Notation RC := (RC c E).
  Hypothesis Hs : setting c E.
  Local Notation Hc := (s_ok Hs).
  Local Notation Hcomp := (s_comp Hs).
  Local Notation Hai := (s_alloc Hs).
  Local Notation Hd := (s_d Hs).
  Local Notation Hfd := (s_fd Hs).

  Lemma RC_begins v l junk : RC false v (D l ++ junk) -> begins c E v l /\ len v = lenN l + lenN junk.
  Proof.
    intros H. split.
    - split; [apply WF_valid; apply (rc_wf H)|]. intros i x Hx. rewrite (RC_get_raw Hc Hcomp Hd _ H).
      rewrite nthN_app_l by (rewrite lenN_map; apply nthN_Some_lt with x; rewrite get_D; exact Hx).
      rewrite nthN_map, get_D, Hx. reflexivity.
    - unfold len. rewrite (rc_num H), lenN_app, lenN_map. reflexivity.
  Qed.

  (** any iterator: honest or not, panicking or not *)
  Lemma extend_any v l it : holds c E v l -> lower it <= usize_max c -> reservable c E (lenN l) (lower it) ->
    result (extend c E it v)
      (fun _ v' => lower it <= lenN (items it) /\ ends_in_panic it = false /\ holds c E v' (l ++ items it))
      (fun k v' =>
         (no_room k /\ exists l1 l2, items it = l1 ++ l2 /\ holds c E v' (l ++ l1)) \/
         (k = PUser /\ ends_in_panic it = true /\ lower it <= lenN (items it) /\ holds c E v' (l ++ items it)) \/
         (k = (if ends_in_panic it then PUser else PUnwrap) /\ lenN (items it) < lower it /\
            begins c E v' (l ++ items it) /\ len v' = lenN l + lower it)).
  Proof.
    intros H Hu Hfit. pose proof H as H0. apply (holds_RC Hs) in H.
    destruct (N.le_gt_cases (lenN l + lower it) (usize_max c)) as [Hle|Hgt].
    2:{ rewrite (RC_extend_overflow Hc Hcomp Hd (it := it) H) by (rewrite lenN_map; exact Hgt).
        left. split; [right; reflexivity|]. exists [], (items it). rewrite app_nil_r. auto. }
    eapply okr_mono; [apply (RC_extend Hc Hcomp Hd (it := it) H); rewrite lenN_map; [exact Hle|exact Hfit]|..]; cbv beta.
    - intros u v' [G1 [G2 G3]]. split; [exact G2|]. split; [exact G1|]. apply (holds_RC Hs). rewrite map_app. exact G3.
    - intros k v' [[G0 [l1 [l2 [G1 G2]]]]|[[-> [G1 [G2 G3]]]|[-> [G1 [junk [G2 G3]]]]]].
      + left. split; [exact G0|]. exists l1, l2. split; [exact G1|]. apply (holds_RC Hs). rewrite map_app. exact G2.
      + right. left. split; [reflexivity|]. split; [exact G1|]. split; [exact G2|]. apply (holds_RC Hs). rewrite map_app. exact G3.
      + right. right. split; [reflexivity|]. split; [exact G1|]. rewrite app_assoc, <- map_app in G3.
        destruct (RC_begins G3) as [K1 K2]. split; [exact K1|]. rewrite K2, lenN_app, G2. lia.
  Qed.
  Lemma build_result A (m : M ev A) Q F : result (m (ev_new c)) (fun _ v => Q v) F -> builds (build c m) Q (fun k => exists v, F k v).
  Proof. unfold build. destruct (m (ev_new c)) as [[a|k| |] v]; cbn; auto. intros H. exists v. exact H. Qed.
  Lemma from_iter_ok it : lower it <= lenN (items it) -> lower it <= usize_max c -> reservable c E 0 (lower it) ->
    builds (from_iter c E it) (fun v => ends_in_panic it = false /\ holds c E v (items it))
      (fun k => no_room k \/ (k = PUser /\ ends_in_panic it = true)).
  Proof.
    intros Hh Hu Hf. pose proof (extend_any (it := it) (proj1 (new_ok Hs)) Hu Hf) as G. apply build_result in G.
    unfold from_iter. destruct (build c (extend c E it)) as [v|k| |]; cbn in G |- *; auto.
    - destruct G as [_ G]. exact G.
    - destruct G as [v [[G _]|[[G1 [G2 _]]|[_ [G _]]]]]; [left; exact G|right; auto|lia].
  Qed.
  Lemma from_slice_ok xs : reservable c E 0 (lenN xs) -> lenN xs <= usize_max c ->
    builds (from_slice c E xs) (fun v => holds c E v xs) no_room.
  Proof.
    intros Hf Hu. pose proof (from_iter_ok (it := exact_iter xs)) as G. cbn in G. specialize (G (N.le_refl _) Hu Hf).
    unfold from_slice. unfold from_iter in G. destruct (build c (extend c E (exact_iter xs))) as [v|k| |]; cbn in G |- *; auto.
    - apply G.
    - destruct G as [G|[_ G]]; [exact G|discriminate].
  Qed.
  (** When one element fills a block and overflow checks are off, a promise of
      usize::MAX items (iter::repeat, for instance) makes extend write outside the storage. *)
  Lemma extend_UB v l it : ovf c = false -> P = 1 -> holds c E v l -> items it <> [] -> lower it <> 0 -> lenN l + lower it = usize_max c ->
    fst (extend c E it v) = UB.
  Proof.
    intros Ho HP H Hi Hk Hm. pose proof (holds_len Hs H) as Hn. unfold len in Hn.
    unfold extend, bind at 1, reads at 1, bind at 1. rewrite (reserve_wraps Hc Hcomp Hd) by (try assumption; rewrite Hn; exact Hm).
    unfold bind at 1, reads at 1. cbn [num storage]. rewrite Hn, (uadd_ok Hc Hcomp) by lia.
    unfold bind at 1, set_len at 1. unfold bind at 1.
    destruct (N.to_nat (lower it)) as [|n] eqn:En; [lia|]. cbn [extend_known]. unfold bind at 1, lift at 1.
    unfold len. rewrite Hn, (uadd_ok Hc Hcomp) by lia. destruct (items it) as [|x xs]; [contradiction|].
    unfold bind at 1, set, set_raw, len. cbn [num]. rewrite (proj2 (N.leb_gt _ _)) by lia.
    rewrite (set_raw_unchecked_UB Hc Hcomp) by (cbn [storage]; apply N.le_0_l). reflexivity.
  Qed.

  (** the same with an iterator that panics at once: the vector left behind is invalid *)
  Lemma extend_broken v l it : ovf c = false -> P = 1 -> holds c E v l -> items it = [] -> ends_in_panic it = true ->
    lower it <> 0 -> lenN l + lower it = usize_max c ->
    extend c E it v = (Panic PUser, mkEv (mkRvec [] (vcap (storage v))) (usize_max c)).
  Proof.
    intros Ho HP H Hi Hp Hk Hm. pose proof (holds_len Hs H) as Hn. unfold len in Hn.
    unfold extend, bind at 1, reads at 1, bind at 1. rewrite (reserve_wraps Hc Hcomp Hd) by (try assumption; rewrite Hn; exact Hm).
    unfold bind at 1, reads at 1. cbn [num storage]. rewrite Hn, (uadd_ok Hc Hcomp) by lia.
    unfold bind at 1, set_len at 1. unfold bind at 1.
    destruct (N.to_nat (lower it)) as [|n] eqn:En; [lia|]. cbn [extend_known]. unfold bind at 1, lift at 1.
    unfold len. rewrite Hn, (uadd_ok Hc Hcomp) by lia. rewrite Hi, Hp, Hm. reflexivity.
  Qed.

  (** ** C40 *)
  Lemma raw_write v i d : valid c E v -> i < P * vlen (storage v) -> d < 2 ^ B ->
    exists v', set_raw_unchecked c E i d v = (Ret tt, v') /\ valid c E v' /\ len v' = len v /\ vlen (storage v') = vlen (storage v) /\
      forall j, j < P * vlen (storage v) -> get_raw_unchecked c E j v' = if j =? i then Ret d else get_raw_unchecked c E j v.
  Proof.
    intros H Hi Hdd. apply WF_valid in H.
    rewrite (set_raw_unchecked_spec Hc Hcomp) by exact Hi. eexists. split; [reflexivity|].
    split; [apply WF_valid, (WF_set_at Hc Hcomp), H|].
    split; [unfold len; apply (num_set_at Hc Hcomp)|]. split; [apply (vlen_set_at Hc Hcomp)|]. intros j Hj.
    rewrite !(get_raw_unchecked_spec Hc Hcomp) by (rewrite ?(vlen_set_at Hc Hcomp); exact Hj).
    rewrite (slotv_set_at Hc Hcomp) by (try exact Hi; try exact Hdd; apply (wf_blocks H)).
    destruct (j =? i); reflexivity.
  Qed.
  Lemma set_len_raw v n : valid c E v -> n <= P * vlen (storage v) -> n <= usize_max c ->
    exists v', set_len n v = (Ret tt, v') /\ valid c E v' /\
      forall i, get_raw c E i v' = if i <? n then (let! d := get_raw_unchecked c E i v in Ret (Some d)) else Ret None.
  Proof.
    intros H Hn Hu. eexists. split; [reflexivity|]. split.
    - destruct H as [K1 [K2 [K3 [K4 _]]]]. split; [exact K1|]. split; [exact Hn|]. auto.
    - intros i. unfold get_raw, len. cbn [num]. destruct (N.leb_spec n i); destruct (N.ltb_spec i n); try lia; reflexivity.
  Qed.
End Extend.
