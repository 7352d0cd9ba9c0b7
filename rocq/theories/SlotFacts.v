(** SlotFacts.v -- geometry constants and the slot view of a storage block. *)
From Verif Require Import Config BitFacts.
From Coq Require Import ZifyBool ZifyNat ZifyN.
Open Scope N_scope.
Set Implicit Arguments.
Unset Strict Implicit.
Set Default Proof Using "Type*".

Lemma count_pow2 n v s : 0 < v ->
  fold_right N.add 0 (map (fun k => if 2 ^ N.of_nat k <? v then 1 else 0) (seq s n)) =
  N.min (N.of_nat n) (N.log2_up v - N.of_nat s).
Proof.
  intros Hv; revert s; induction n as [|n IH]; intros s; cbn [seq map fold_right]; [lia|].
  rewrite IH.
  pose proof (N.log2_up_lt_pow2 v (N.of_nat s) Hv) as Hlt.
  destruct (N.ltb_spec (2 ^ N.of_nat s) v) as [H|H].
  - apply Hlt in H. lia.
  - assert (~ N.of_nat s < N.log2_up v) by (intros H2; apply Hlt in H2; lia). lia.
Qed.

Section SlotDefs.
  Context {T : Type} (c : cfg) (E : enumlike T).
  Local Notation B := (BITS E).
  Local Notation P := (EPB c E).

  (** The k-th element of a block. *)
  Definition slot (b k : N) : N := N.land (N.shiftr b (k * B)) (N.ones B).

  (** set_raw_unchecked on one block *)
  Definition set_slot (b k d : N) : N :=
    N.lor (N.land b (bnot c (N.shiftl (N.ones B) (k * B) mod 2 ^ W c)))
          (N.shiftl (cast_block c d) (k * B) mod 2 ^ W c).

  (** The unused high bits of a block. *)
  Definition waste (b : N) : N := N.shiftr b (P * B).
End SlotDefs.

Section Slots.
  Context {T : Type} {c : cfg} {E : enumlike T}.

  Lemma BITS_log2 : 0 < nv E -> BITS E = N.min 32 (N.log2_up (nv E)).
  Proof. intros H. unfold BITS. rewrite count_pow2 by exact H. lia. Qed.

  Local Notation B := (BITS E).
  Local Notation P := (EPB c E).
  Lemma slot_testbit b k m : N.testbit (slot E b k) m = (m <? B) && N.testbit b (k * B + m).
  Proof.
    unfold slot. rewrite N.land_spec, testbit_shiftr, testbit_ones.
    rewrite andb_comm. do 2 f_equal. lia.
  Qed.
  Lemma slot_lt b k : slot E b k < 2 ^ B.
  Proof. apply land_lt_r, ones_lt. Qed.
  Lemma pos_unique j k m m' : m < B -> m' < B -> j * B + m = k * B + m' -> j = k /\ m = m'.
  Proof.
    intros Hm Hm' H.
    assert (j = k).
    { destruct (N.lt_trichotomy j k) as [L|[L|L]]; [|exact L|].
      - assert (j * B + B <= k * B) by nia. lia.
      - assert (k * B + B <= j * B) by nia. lia. }
    subst; lia.
  Qed.
  Lemma set_slot_lt b k d : b < 2 ^ W c -> set_slot c E b k d < 2 ^ W c.
  Proof. intros H. apply lor_lt; [apply land_lt_l; exact H|apply mod_pow2_lt]. Qed.

  Hypothesis Hc : cfg_ok c.
  Hypothesis Hcomp : compiles c E = true.


  Lemma nv_gt1 : 1 < nv E.
  Proof using Hc Hcomp. unfold compiles in Hcomp. lia. Qed.

  Lemma W_cases : W c = 8 \/ W c = 16 \/ W c = 32 \/ W c = 64 \/ W c = 128.
  Proof. pose proof (ok_W Hc) as H; cbn in H; intuition congruence. Qed.

  Lemma BITS_range : 1 <= B /\ B <= 32 /\ B <= W c.
  Proof.
    pose proof nv_gt1 as Hn. rewrite BITS_log2 by lia.
    assert (0 < N.log2_up (nv E)) by (apply N.log2_up_pos; exact Hn).
    unfold compiles in Hcomp. apply andb_true_iff in Hcomp. destruct Hcomp as [_ H2].
    apply orb_true_iff in H2. destruct H2 as [H2|H2].
    - lia.
    - apply N.leb_le in H2. apply N.log2_up_le_pow2 in H2; [lia|lia].
  Qed.

  Lemma EPB_pos : 1 <= P.
  Proof.
    pose proof BITS_range. unfold EPB. apply N.div_le_lower_bound; lia.
  Qed.
  Lemma EPB_mul : P * B <= W c.
  Proof.
    pose proof BITS_range. unfold EPB. rewrite N.mul_comm. apply N.mul_div_le. lia.
  Qed.
  Lemma EPB_le_W : P <= W c.
  Proof. pose proof BITS_range; pose proof EPB_mul. nia. Qed.
  Lemma W_split : W c = P * B + W c mod B.
  Proof.
    pose proof BITS_range. unfold EPB. rewrite (N.mul_comm (W c / B)). apply N.div_mod'.
  Qed.
  Lemma Wmod_lt : W c mod B < B.
  Proof. pose proof BITS_range. apply N.mod_lt. lia. Qed.

  Lemma MASK_ones : MASK c E = N.ones B.
  Proof.
    unfold MASK, cast_block. rewrite ones_eq. apply N.mod_small.
    pose proof BITS_range. pose proof (pow2_pos B).
    assert (2 ^ B <= 2 ^ W c) by (apply pow2_le; lia). lia.
  Qed.

  Lemma slot_off k : k < P -> k * B + B <= W c.
  Proof. intros H. pose proof EPB_mul. nia. Qed.
  Lemma slot_off_lt k : k < P -> k * B < W c.
  Proof. intros H. pose proof (slot_off H). pose proof BITS_range. lia. Qed.

  Lemma block_off_lt i : (i mod P) * B < W c.
  Proof. apply slot_off_lt. apply N.mod_lt. pose proof EPB_pos; lia. Qed.


  (** Position uniqueness *)


  Lemma set_slot_testbit b k d n : k < P -> d < 2 ^ B -> b < 2 ^ W c ->
    N.testbit (set_slot c E b k d) n =
    if (k * B <=? n) && (n <? k * B + B) then N.testbit d (n - k * B) else N.testbit b n.
  Proof.
    intros Hk Hd Hb. unfold set_slot, bnot, cast_block.
    pose proof (slot_off Hk) as Hoff.
    rewrite (N.mod_small d) by (assert (2 ^ B <= 2 ^ W c) by (apply pow2_le; lia); lia).
    rewrite N.lor_spec, N.land_spec, testbit_lnot, !testbit_mod_pow2, !testbit_shiftl, testbit_ones.
    destruct (N.leb_spec (k * B) n) as [H1|H1]; cbn [andb].
    - destruct (N.ltb_spec n (k * B + B)) as [H2|H2].
      + destruct (N.ltb_spec n (W c)) as [H3|H3]; [|lia].
        destruct (N.ltb_spec (n - k * B) B) as [H4|H4]; [|lia].
        cbn. rewrite andb_false_r. reflexivity.
      + destruct (N.ltb_spec (n - k * B) B) as [H4|H4]; [lia|].
        rewrite (lt_pow2_high Hd H4). rewrite !andb_false_r, orb_false_r. cbn.
        destruct (N.ltb_spec n (W c)) as [H3|H3]; [apply andb_true_r|].
        rewrite (lt_pow2_high Hb H3). reflexivity.
    - rewrite !andb_false_r, orb_false_r. cbn.
      destruct (N.ltb_spec n (W c)) as [H3|H3]; [apply andb_true_r|lia].
  Qed.

  Lemma slot_set_slot b k d j : k < P -> d < 2 ^ B -> b < 2 ^ W c ->
    slot E (set_slot c E b k d) j = if j =? k then d else slot E b j.
  Proof.
    intros Hk Hd Hb. apply N.bits_inj; intros m.
    rewrite slot_testbit, set_slot_testbit by assumption.
    destruct (N.eqb_spec j k) as [->|Hjk].
    - destruct (N.ltb_spec m B) as [Hm|Hm]; cbn [andb].
      + destruct (N.leb_spec (k * B) (k * B + m)); [|lia].
        destruct (N.ltb_spec (k * B + m) (k * B + B)); [|lia]. cbn [andb].
        f_equal; lia.
      + symmetry; apply (lt_pow2_high Hd Hm).
    - rewrite slot_testbit. destruct (N.ltb_spec m B) as [Hm|Hm]; cbn [andb]; [|reflexivity].
      destruct (N.leb_spec (k * B) (j * B + m)); cbn [andb]; [|reflexivity].
      destruct (N.ltb_spec (j * B + m) (k * B + B)); [|reflexivity].
      destruct (@pos_unique j k m (j * B + m - k * B)); try lia.
  Qed.

  Lemma waste_set_slot b k d : k < P -> d < 2 ^ B -> b < 2 ^ W c ->
    waste c E (set_slot c E b k d) = waste c E b.
  Proof.
    intros Hk Hd Hb. apply N.bits_inj; intros m. unfold waste.
    rewrite !testbit_shiftr, set_slot_testbit by assumption.
    destruct (N.ltb_spec (m + P * B) (k * B + B)); [nia|]. rewrite andb_false_r. reflexivity.
  Qed.
End Slots.
