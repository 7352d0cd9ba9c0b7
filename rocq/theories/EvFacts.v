(** EvFacts.v -- well-formedness, the slot view of a whole EnumVec, and the raw accessors. *)
From Verif Require Export Config BitFacts SlotFacts.
From Coq Require Import ZifyBool ZifyNat ZifyN.
Open Scope N_scope.
Set Implicit Arguments.
Unset Strict Implicit.
Set Default Proof Using "Type*".

Section EvDefs.
  Context {T : Type} (c : cfg) (E : enumlike T).
  Local Notation B := (BITS E).
  Local Notation P := (EPB c E).

  (** Storage invariant: blocks are W-bit numbers, the storage covers the length,
      capacity covers the storage and was granted by the allocator; the length is a usize. *)
  Record WF (v : ev) : Prop := {
    wf_blocks : Forall (fun b => b < 2 ^ W c) (data (storage v));
    wf_cover : num v <= P * vlen (storage v);
    wf_cap : vlen (storage v) <= vcap (storage v);
    wf_alloc : vcap (storage v) <= alloc_max c;
    wf_num : num v <= usize_max c
  }.

  Definition slotv (v : ev) (i : N) : N :=
    match nthN (data (storage v)) (i / P) with
    | Some b => slot E b (i mod P)
    | None => 0
    end.

  Definition wastev (v : ev) (w : N) : N :=
    match nthN (data (storage v)) w with
    | Some b => waste c E b
    | None => 0
    end.

  (** v represents the list l: it is well formed and slot i holds to_discr(l[i]). *)
  Definition Rep (v : ev) (l : list T) : Prop :=
    WF v /\ num v = lenN l /\ forall i x, nthN l i = Some x -> slotv v i = to_d E x.

  Definition set_data (v : ev) (d : list N) : ev := mkEv (mkRvec d (vcap (storage v))) (num v).
  Definition set_at (v : ev) (i d : N) : ev :=
    match nthN (data (storage v)) (i / P) with
    | Some b => set_data v (updN (data (storage v)) (i / P) (set_slot c E b (i mod P) d))
    | None => v
    end.

  (** ceil(n / P) *)
  Definition need (n : N) : N := (n + (P - 1)) / P.
End EvDefs.

Section Ev.
  Context {T : Type} {c : cfg} {E : enumlike T}.
  Local Notation B := (BITS E).
  Local Notation P := (EPB c E).
  Local Notation WF := (WF c E).
  Local Notation slotv := (slotv c E).
  Local Notation wastev := (wastev c E).
  Local Notation set_at := (set_at c E).
  Local Notation Rep := (Rep c E).
  Local Notation need := (need c E).

  Hypothesis Hc : cfg_ok c.
  Hypothesis Hcomp : compiles c E = true.

  Lemma usize_max_eq : usize_max c = 2 ^ usize_bits c - 1.
  Proof. reflexivity. Qed.
  Lemma usize_max_big : 2 ^ 32 - 1 <= usize_max c.
  Proof.
    unfold usize_max. destruct (ok_usize Hc) as [-> | ->]; [lia|]. cbn; discriminate.
  Qed.
  Lemma usize_pow : 2 ^ usize_bits c = usize_max c + 1.
  Proof. unfold usize_max. pose proof (pow2_pos (usize_bits c)). lia. Qed.

  Lemma divP_lt i n : i < P * n -> i / P < n.
  Proof. intros H. apply N.div_lt_upper_bound; [pose proof (EPB_pos Hc Hcomp); lia|exact H]. Qed.
  Lemma divP_lt_iff i n : i < P * n <-> i / P < n.
  Proof.
    split; [apply divP_lt|]. intros H. pose proof (EPB_pos Hc Hcomp) as HP.
    pose proof (N.div_mod i P ltac:(lia)). pose proof (N.mod_lt i P ltac:(lia)). nia.
  Qed.
  Lemma modP_lt i : i mod P < P.
  Proof. apply N.mod_lt. pose proof (EPB_pos Hc Hcomp); lia. Qed.
  Lemma idx_unique i j : i / P = j / P -> i mod P = j mod P -> i = j.
  Proof.
    intros H1 H2. pose proof (EPB_pos Hc Hcomp).
    rewrite (N.div_mod i P), (N.div_mod j P), H1, H2 by lia. reflexivity.
  Qed.

  Lemma shr_ok b n : n < W c -> shr c b n = Ret (N.shiftr b n).
  Proof. intros H. unfold shr. destruct (N.ltb_spec n (W c)); [reflexivity|lia]. Qed.
  Lemma shl_ok b n : n < W c -> shl c b n = Ret (N.shiftl b n mod 2 ^ W c).
  Proof. intros H. unfold shl. destruct (N.ltb_spec n (W c)); [reflexivity|lia]. Qed.
  Lemma uadd_ok a b : a + b <= usize_max c -> uadd c a b = Ret (a + b).
  Proof. intros H. unfold uadd. destruct (N.leb_spec (a + b) (usize_max c)); [reflexivity|lia]. Qed.
  Lemma umul_ok a b : a * b <= usize_max c -> umul c a b = Ret (a * b).
  Proof. intros H. unfold umul. destruct (N.leb_spec (a * b) (usize_max c)); [reflexivity|lia]. Qed.
  Lemma usub_ok a b : b <= a -> usub c a b = Ret (a - b).
  Proof. intros H. unfold usub. destruct (N.leb_spec b a); [reflexivity|lia]. Qed.

  Lemma slotv_lt v i : slotv v i < 2 ^ B.
  Proof. unfold slotv. destruct (nthN _ _); [apply slot_lt|apply pow2_pos]. Qed.

  Lemma B32 d : d < 2 ^ B -> cast_usize c d = d.
  Proof.
    intros H. unfold cast_usize. apply N.mod_small.
    pose proof (BITS_range Hc Hcomp) as [_ [HB _]].
    apply N.lt_le_trans with (2 ^ B); [exact H|]. apply pow2_le.
    destruct (ok_usize Hc) as [-> | ->]; lia.
  Qed.
  Lemma castB d : d < 2 ^ B -> cast_block c d = d.
  Proof.
    intros H. unfold cast_block. apply N.mod_small.
    pose proof (BITS_range Hc Hcomp) as [_ [_ HB]].
    apply N.lt_le_trans with (2 ^ B); [exact H|]. apply pow2_le; exact HB.
  Qed.

  Lemma get_raw_unchecked_spec v i : i < P * vlen (storage v) ->
    get_raw_unchecked c E i v = Ret (slotv v i).
  Proof.
    intros Hi. unfold get_raw_unchecked, block_index, load_unchecked, slotv.
    destruct (nthN_lt_Some (divP_lt Hi)) as [b Hb]. rewrite Hb. cbn [obind].
    rewrite shr_ok by apply (block_off_lt Hc Hcomp). cbn [obind].
    rewrite (MASK_ones Hc Hcomp). fold (slot E b (i mod P)). rewrite B32; [reflexivity|apply slot_lt].
  Qed.

  Lemma get_raw_unchecked_UB v i : vlen (storage v) <= i / P -> get_raw_unchecked c E i v = UB.
  Proof.
    intros Hi. unfold get_raw_unchecked, block_index, load_unchecked.
    rewrite nthN_ge_None by exact Hi. reflexivity.
  Qed.

  Lemma upd_upd A (l : list A) i x y : upd (upd l i x) i y = upd l i y.
  Proof. revert i; induction l as [|h t IH]; intros [|i]; cbn; try rewrite IH; reflexivity. Qed.

  Lemma set_raw_unchecked_spec v i d : i < P * vlen (storage v) ->
    set_raw_unchecked c E i d v = (Ret tt, set_at v i d).
  Proof.
    intros Hi. unfold set_raw_unchecked, block_index, set_at.
    pose proof (divP_lt Hi) as Hw.
    destruct (nthN_lt_Some Hw) as [b Hb]. rewrite Hb.
    assert (Hoff := block_off_lt Hc Hcomp i).
    erewrite bind_reads by (unfold load_unchecked; rewrite Hb; reflexivity).
    rewrite shl_ok by exact Hoff. rewrite bind_lift.
    unfold store_unchecked at 1. unfold bind at 1.
    destruct (N.ltb_spec (i / P) (vlen (storage v))) as [_|Hx]; [|unfold vlen in *; lia].
    erewrite bind_reads.
    2:{ unfold load_unchecked. cbn [storage data].
        rewrite nthN_updN, N.eqb_refl.
        destruct (N.ltb_spec (i / P) (lenN (data (storage v)))); [reflexivity|unfold vlen in *; lia]. }
    rewrite shl_ok by exact Hoff. rewrite bind_lift.
    unfold store_unchecked. cbn [storage data vcap num].
    unfold vlen; cbn [data]. rewrite lenN_updN.
    destruct (N.ltb_spec (i / P) (lenN (data (storage v)))) as [_|Hx]; [|unfold vlen in *; lia].
    unfold set_data, set_slot. rewrite (MASK_ones Hc Hcomp).
    unfold updN. rewrite upd_upd. reflexivity.
  Qed.

  Lemma set_raw_unchecked_UB v i d : vlen (storage v) <= i / P ->
    set_raw_unchecked c E i d v = (UB, v).
  Proof.
    intros Hi. unfold set_raw_unchecked, block_index, bind, reads, load_unchecked.
    rewrite nthN_ge_None by exact Hi. reflexivity.
  Qed.

  Lemma num_set_at v i d : num (set_at v i d) = num v.
  Proof. unfold set_at; destruct (nthN _ _); reflexivity. Qed.
  Lemma vlen_set_at v i d : vlen (storage (set_at v i d)) = vlen (storage v).
  Proof. unfold set_at; destruct (nthN _ _); [|reflexivity]. apply lenN_updN. Qed.
  Lemma vcap_set_at v i d : vcap (storage (set_at v i d)) = vcap (storage v).
  Proof. unfold set_at; destruct (nthN _ _); reflexivity. Qed.
  Lemma blocks_set_at v i d : Forall (fun b => b < 2 ^ W c) (data (storage v)) ->
    Forall (fun b => b < 2 ^ W c) (data (storage (set_at v i d))).
  Proof.
    intros H. unfold set_at. destruct (nthN _ _) as [b|] eqn:Hb; [|exact H].
    apply Forall_updN; [exact H|]. apply set_slot_lt. apply (Forall_nthN H Hb).
  Qed.
  Lemma WF_set_at v i d : WF v -> WF (set_at v i d).
  Proof.
    intros [H1 H2 H3 H4 Hu]. constructor; rewrite ?num_set_at, ?vlen_set_at, ?vcap_set_at; try assumption.
    apply blocks_set_at; exact H1.
  Qed.

  Lemma slotv_set_at v i d j : Forall (fun b => b < 2 ^ W c) (data (storage v)) ->
    i < P * vlen (storage v) -> d < 2 ^ B ->
    slotv (set_at v i d) j = if j =? i then d else slotv v j.
  Proof.
    intros HF Hi Hd. pose proof (divP_lt Hi) as Hw.
    destruct (nthN_lt_Some Hw) as [b Hb].
    unfold slotv, set_at. rewrite Hb. cbn [storage data set_data].
    rewrite nthN_updN. destruct (N.eqb_spec (i / P) (j / P)) as [Heq|Hne].
    - destruct (N.ltb_spec (i / P) (lenN (data (storage v)))) as [_|]; [|unfold vlen in *; lia].
      rewrite (slot_set_slot Hc Hcomp) by (try apply modP_lt; try assumption; apply (Forall_nthN HF Hb)).
      rewrite <- Heq, Hb.
      destruct (N.eqb_spec j i) as [->|Hji].
      + rewrite N.eqb_refl. reflexivity.
      + destruct (N.eqb_spec (j mod P) (i mod P)) as [Hm|Hm]; [|reflexivity].
        exfalso; apply Hji. apply idx_unique; congruence.
    - destruct (N.eqb_spec j i) as [->|Hji]; [congruence|reflexivity].
  Qed.

  Lemma wastev_set_at v i d w : Forall (fun b => b < 2 ^ W c) (data (storage v)) ->
    d < 2 ^ B -> wastev (set_at v i d) w = wastev v w.
  Proof.
    intros HF Hd. unfold wastev, set_at.
    destruct (nthN (data (storage v)) (i / P)) as [b|] eqn:Hb; [|reflexivity].
    cbn [storage data set_data]. rewrite nthN_updN.
    destruct (N.eqb_spec (i / P) w) as [<-|Hne]; [|reflexivity].
    pose proof (nthN_Some_lt Hb).
    destruct (N.ltb_spec (i / P) (lenN (data (storage v)))) as [_|]; [|lia].
    rewrite Hb. apply (waste_set_slot Hc Hcomp); try assumption; [apply modP_lt|apply (Forall_nthN HF Hb)].
  Qed.

  Lemma need_spec n : n <= P * need n /\ forall k, n <= P * k -> need n <= k.
  Proof.
    unfold need. pose proof (EPB_pos Hc Hcomp) as HP. split.
    - pose proof (N.div_mod (n + (P - 1)) P ltac:(lia)).
      pose proof (N.mod_lt (n + (P - 1)) P ltac:(lia)). lia.
    - intros k Hk. apply N.lt_succ_r. apply N.div_lt_upper_bound; [lia|]. rewrite N.mul_succ_r. lia.
  Qed.
  Lemma blocks_for_small n : n + (P - 1) <= usize_max c -> blocks_for_elements c E n = need n.
  Proof. intros H. unfold blocks_for_elements, need. rewrite N.min_l by exact H. reflexivity. Qed.
  Lemma blocks_for_aligned n : n mod P = 0 -> n <= usize_max c -> blocks_for_elements c E n = n / P.
  Proof.
    intros Hm Hn. unfold blocks_for_elements. pose proof (EPB_pos Hc Hcomp) as HP.
    pose proof (N.div_mod n P ltac:(lia)) as Hd.
    assert (Hmin : exists r, N.min (n + (P - 1)) (usize_max c) = P * (n / P) + r /\ r < P).
    { exists (N.min (n + (P - 1)) (usize_max c) - n). split; lia. }
    destruct Hmin as [r [-> Hr]]. symmetry. apply N.div_unique with r; [exact Hr|reflexivity].
  Qed.
  Lemma need_mono n k : n <= P * k -> need n <= k.
  Proof. apply need_spec. Qed.
  Lemma need_cover n : n <= P * need n.
  Proof. apply need_spec. Qed.

  (** lengths for which blocks_for_elements does not saturate *)
  Definition fixable (n : N) : Prop := n <= P * (usize_max c / P).
  Lemma blocks_for_fixable n : fixable n -> blocks_for_elements c E n = need n.
  Proof.
    intros H. unfold fixable in H. pose proof (EPB_pos Hc Hcomp) as HP. destruct (N.le_gt_cases (n + (P - 1)) (usize_max c)) as [Hs|Hs].
    - apply blocks_for_small, Hs.
    - unfold blocks_for_elements. rewrite N.min_r by lia. apply N.le_antisymm.
      + unfold need. apply N.div_le_mono; lia.
      + apply need_spec, H.
  Qed.
  Lemma aligned_fixable n : n mod P = 0 -> n <= usize_max c -> fixable n.
  Proof.
    intros Hm Hn. unfold fixable. pose proof (EPB_pos Hc Hcomp) as HP. pose proof (N.div_mod n P ltac:(lia)) as Hd.
    assert (n / P <= usize_max c / P) by (apply N.div_le_mono; lia). nia.
  Qed.
  Lemma fixable_small n : n + P <= usize_max c + 1 -> fixable n.
  Proof.
    intros H. unfold fixable. pose proof (EPB_pos Hc Hcomp) as HP. pose proof (N.mul_succ_div_gt (usize_max c) P ltac:(lia)) as Hd. lia.
  Qed.
  Lemma fixable_le n m : n <= m -> fixable m -> fixable n.
  Proof. unfold fixable. lia. Qed.
  Lemma isize_blocks : alloc_isize c -> 2 * alloc_max c < usize_max c.
  Proof.
    unfold alloc_isize, isize_max, usize_max. intros H. pose proof (W_cases Hc Hcomp) as HW.
    assert (2 ^ usize_bits c = 2 * 2 ^ (usize_bits c - 1)) as ->.
    { rewrite <- N.pow_succ_r'. f_equal. destruct (ok_usize Hc); lia. }
    assert (1 <= 2 ^ (usize_bits c - 1)) by (pose proof (pow2_pos (usize_bits c - 1)); lia).
    assert (alloc_max c * 8 <= alloc_max c * W c) by (apply N.mul_le_mono_l; lia). lia.
  Qed.
  Lemma roomy_isize : roomy c -> alloc_isize c.
  Proof.
    unfold roomy, alloc_isize, isize_max. intros H. assert (2 ^ usize_bits c = 2 * 2 ^ (usize_bits c - 1)) as E1.
    { rewrite <- N.pow_succ_r'. f_equal. destruct (ok_usize Hc); lia. }
    assert (16 <= 2 ^ (usize_bits c - 1)) by (change 16 with (2 ^ 4); apply N.pow_le_mono_r; destruct (ok_usize Hc); lia). lia.
  Qed.
  Lemma roomy_num v : roomy c -> WF v -> num v + W c <= usize_max c.
  Proof.
    intros HR Hw. unfold roomy in HR. pose proof (wf_cover Hw). pose proof (wf_cap Hw).
    pose proof (wf_alloc Hw). pose proof (EPB_le_W Hc Hcomp). pose proof usize_pow.
    assert (P * vlen (storage v) <= W c * alloc_max c) by (apply N.mul_le_mono; lia). lia.
  Qed.
End Ev.
Arguments fixable {T} c E n.
