(** StorageFacts.v -- lemmas for C45: the packed layout seen through storage(). *)
From Verif Require Export ClaimFacts4 WidthFacts Storage LayoutSpec.
From Coq Require Import ZifyBool ZifyNat ZifyN.
Open Scope N_scope.
Set Implicit Arguments.
Unset Strict Implicit.

Lemma upd_set A (l : list A) n x : upd l n x = l_set_nat l n x.
Proof. revert n. induction l as [|h t IH]; intros [|n]; cbn; try reflexivity. f_equal. apply IH. Qed.

Section StorageFacts.
  Context {T : Type} {c : cfg} {E : enumlike T}.
  Hypothesis Hs : setting c E.
  Local Notation Hc := (s_ok Hs).
  Local Notation Hcomp := (s_comp Hs).
  Local Notation Hai := (s_alloc Hs).
  Local Notation Hd := (s_d Hs).

  Lemma width_BITS B : width_of (nv E) B -> B = BITS E.
  Proof.
    intros [H1 H2]. pose proof (nv_gt1 Hc Hcomp) as Hn.
    assert (HB : 0 < B). { destruct (N.eq_dec B 0) as [->|]; [cbn in H2; lia|lia]. }
    rewrite N.sub_1_r in H1.
    assert (Hl : N.log2_up (nv E) = B) by (apply N.log2_up_unique; [exact HB|split; assumption]).
    rewrite BITS_log2 by lia. rewrite Hl. symmetry. apply N.min_r. rewrite <- Hl.
    apply N.log2_up_le_pow2; [lia|]. apply (proj1 (proj2 (proj2 Hs))).
  Qed.
  Lemma slot_field b k : slot E b k = field (BITS E) b k.
  Proof. unfold slot, field. rewrite N.shiftr_div_pow2, N.land_ones, (N.mul_comm k). reflexivity. Qed.

  Lemma layout B v l : width_of (nv E) B ->
    (holds c E v l <-> valid c E v /\ len v = lenN l /\
       forall i x, l_get l i = Some x ->
       exists b, l_get (storage_blocks v) (i / (W c / B)) = Some b /\ field B b (i mod (W c / B)) = to_d E x).
  Proof.
    intros HB. apply width_BITS in HB. subst B. change (W c / BITS E) with (EPB c E). split.
    - intros H. split; [apply H|]. split; [apply (holds_len Hs H)|]. intros i x Hx.
      apply (holds_RC Hs) in H. assert (Hi : nthN (map (to_d E) l) i = Some (to_d E x)).
      { rewrite nthN_map. unfold nthN. unfold l_get in Hx. rewrite Hx. reflexivity. }
      pose proof (rc_slot H Hi) as Hsl. pose proof (nthN_Some_lt Hi) as Hlt. rewrite <- (rc_num H) in Hlt.
      pose proof (wf_cover (rc_wf H)) as Hcv. unfold slotv in Hsl.
      destruct (@nthN_lt_Some _ (data (storage v)) (i / EPB c E)) as [b Hb].
      { apply (divP_lt Hc Hcomp). unfold vlen in Hcv. lia. }
      rewrite Hb in Hsl. exists b. split; [exact Hb|]. rewrite <- slot_field. exact Hsl.
    - intros [Hv [Hl Hx]]. apply (holds_RC Hs). constructor; [apply WF_valid; exact Hv|rewrite lenN_map; exact Hl| |discriminate].
      intros i d Hi. rewrite nthN_map in Hi. destruct (nthN l i) as [x|] eqn:Hn; [|discriminate]. cbn in Hi. injection Hi as <-.
      destruct (Hx i x Hn) as [b [Hb Hf]]. unfold slotv. unfold l_get, storage_blocks in Hb. unfold nthN. rewrite Hb, slot_field. exact Hf.
  Qed.

  Lemma assign_ok B v w b : width_of (nv E) B -> valid c E v -> w < lenN (storage_blocks v) -> b < 2 ^ W c ->
    exists v', storage_assign w b v = (Ret tt, v') /\ valid c E v' /\ len v' = len v /\
      storage_blocks v' = l_set (storage_blocks v) w b /\ same_allocation v v' /\
      forall i, get_raw c E i v' =
        if (i <? len v) && (i / (W c / B) =? w) then Ret (Some (field B b (i mod (W c / B)))) else get_raw c E i v.
  Proof.
    intros HB Hv Hw Hb. apply width_BITS in HB. subst B. change (W c / BITS E) with (EPB c E).
    unfold storage_assign, storage_blocks in *. rewrite store_ok by exact Hw.
    apply WF_valid in Hv.
    assert (Hw' : WF c E (set_block v w b)) by (apply (WF_set_block Hc Hcomp Hd w Hv Hb)).
    eexists. split; [reflexivity|]. split; [apply WF_valid; exact Hw'|]. split; [reflexivity|]. split; [|split; [reflexivity|]].
    - apply upd_set.
    - intros i. unfold get_raw. change (len (set_block v w b)) with (len v).
      destruct (N.leb_spec (len v) i) as [H|H].
      + rewrite (proj2 (N.ltb_ge _ _)) by exact H. reflexivity.
      + rewrite (proj2 (N.ltb_lt _ _)) by exact H. cbn [andb]. pose proof (wf_cover Hv) as Hcv. unfold len in H.
        rewrite !(get_raw_unchecked_spec Hc Hcomp) by (rewrite ?vlen_set_block; lia). cbn [obind].
        rewrite (slotv_set_block Hc Hcomp Hd) by exact Hw.
        destruct (i / EPB c E =? w); [rewrite slot_field|]; reflexivity.
  Qed.
  Lemma assign_oob v w b : lenN (storage_blocks v) <= w -> storage_assign w b v = (Panic PIndex, v).
  Proof. intros H. unfold storage_assign, store. rewrite (proj2 (N.ltb_ge _ _)) by exact H. reflexivity. Qed.

  Lemma raw_copy v l w : holds c E v l -> holds c E w [] -> storage_blocks w = [] ->
    result ((storage_extend c (storage_blocks v) ;;; set_len (len v)) w)
      (fun _ w' => holds c E w' l /\ storage_blocks w' = storage_blocks v)
      (fun k w' => k = PCapacity /\ w' = w).
  Proof.
    intros Hv Hw Hnil. apply (holds_RC Hs) in Hv. apply (holds_RC Hs) in Hw. apply result_okr.
    unfold storage_extend, storage_blocks in *. unfold bind, on_storage, vec_extend_from.
    destruct (vec_ensure_cases Hc Hcomp Hd (vlen (storage w) + lenN (data (storage v))) (wf_alloc (rc_wf Hw)))
      as [[cap' [-> [K1 [K2 K3]]]]|[->| ->]]; cbn; [| |exact I].
    - rewrite Hnil. cbn. split; [|reflexivity]. apply (holds_RC Hs). destruct Hv as [[V1 V2 V3 V4] Vn Vs _].
      constructor; [constructor|exact Vn|exact Vs|discriminate]; cbn; try assumption.
      + unfold vlen in *. cbn. lia.
    - auto.
  Qed.
End StorageFacts.
