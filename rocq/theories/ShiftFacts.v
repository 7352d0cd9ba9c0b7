(** ShiftFacts.v -- insert and remove on raw lists. *)
From Verif Require Export ExtendFacts.
From Coq Require Import ZifyBool ZifyNat ZifyN.
Open Scope N_scope.
Set Implicit Arguments.
Unset Strict Implicit.
Set Default Proof Using "Type*".

Definition set_block (v : ev) (w b : N) : ev :=
  mkEv (mkRvec (updN (data (storage v)) w b) (vcap (storage v))) (num v).

(** list-level insert and remove *)
Definition insertN {A} (l : list A) (i : N) (x : A) : list A := firstn (N.to_nat i) l ++ x :: skipn (N.to_nat i) l.
Definition removeN {A} (l : list A) (i : N) : list A := firstn (N.to_nat i) l ++ skipn (S (N.to_nat i)) l.
Lemma lenN_skipn A n (l : list A) : lenN (skipn n l) = lenN l - N.of_nat n.
Proof. unfold lenN. rewrite skipn_length. lia. Qed.
Lemma nthN_skipn A n (l : list A) i : nthN (skipn n l) i = nthN l (N.of_nat n + i).
Proof. unfold nthN. rewrite nth_error_skipn. f_equal. lia. Qed.
Lemma nthN_cons_S A (x : A) l i : 0 < i -> nthN (x :: l) i = nthN l (i - 1).
Proof. intros H. unfold nthN. replace (N.to_nat i) with (S (N.to_nat (i - 1))) by lia. reflexivity. Qed.
Lemma lenN_insertN A (l : list A) i x : i <= lenN l -> lenN (insertN l i x) = lenN l + 1.
Proof. intros H. unfold insertN. rewrite lenN_app, lenN_cons, lenN_firstn, lenN_skipn. lia. Qed.
Lemma nthN_insertN A (l : list A) i x k : i <= lenN l ->
  nthN (insertN l i x) k = if k <? i then nthN l k else if k =? i then Some x else nthN l (k - 1).
Proof.
  intros H. unfold insertN.
  assert (HL : lenN (firstn (N.to_nat i) l) = i) by (rewrite lenN_firstn; lia).
  destruct (N.ltb_spec k i) as [Hk|Hk].
  - rewrite nthN_app_l by lia. apply nthN_firstn. lia.
  - rewrite nthN_app_r by lia. rewrite HL. destruct (N.eqb_spec k i) as [->|Hne].
    + rewrite N.sub_diag. reflexivity.
    + rewrite nthN_cons_S by lia. rewrite nthN_skipn. f_equal. lia.
Qed.
Lemma lenN_removeN A (l : list A) i : i < lenN l -> lenN (removeN l i) = lenN l - 1.
Proof. intros H. unfold removeN. rewrite lenN_app, lenN_firstn, lenN_skipn. lia. Qed.
Lemma nthN_removeN A (l : list A) i k : i < lenN l ->
  nthN (removeN l i) k = if k <? i then nthN l k else nthN l (k + 1).
Proof.
  intros H. unfold removeN.
  assert (HL : lenN (firstn (N.to_nat i) l) = i) by (rewrite lenN_firstn; lia).
  destruct (N.ltb_spec k i) as [Hk|Hk].
  - rewrite nthN_app_l by lia. apply nthN_firstn. lia.
  - rewrite nthN_app_r by lia. rewrite HL, nthN_skipn. f_equal. lia.
Qed.

Section Shift.
  Context {T : Type} {c : cfg} {E : enumlike T}.
  Local Notation B := (BITS E).
  Local Notation P := (EPB c E).
  Local Notation WF := (WF c E).
  Local Notation slotv := (slotv c E).
  Local Notation wastev := (wastev c E).
  Local Notation RC := (RC c E).

  Hypothesis Hc : cfg_ok c.
  Hypothesis Hcomp : compiles c E = true.
  Hypothesis Hd : forall x, to_d E x < 2 ^ B.

  (** ** one block *)
  Lemma insert_shift_ok b z : B < W c -> b < 2 ^ W c -> z < 2 ^ B ->
    exists b', insert_shift c E b z = Ret (b', slot E b (P - 1)) /\ b' < 2 ^ W c /\
      slot E b' 0 = z /\ forall j, j + 1 < P -> slot E b' (j + 1) = slot E b j.
  Proof.
    intros HBW Hb Hz. pose proof (Ppos Hc Hcomp Hd) as HP. pose proof (BITS_range Hc Hcomp) as [HB1 _].
    unfold insert_shift. rewrite (shr_ok Hc Hcomp) by (apply (slot_off_lt Hc Hcomp); lia).
    cbn [obind]. rewrite (shl_ok Hc Hcomp) by exact HBW. cbn [obind]. rewrite (MASK_ones Hc Hcomp).
    set (b' := N.lor (N.shiftl b B mod 2 ^ W c) z).
    exists b'. split; [reflexivity|].
    assert (HzW : z < 2 ^ W c) by (apply N.lt_le_trans with (2 ^ B); [exact Hz|apply pow2_le; lia]).
    split; [apply lor_lt; [apply mod_pow2_lt|exact HzW]|].
    assert (Hbit : forall m, N.testbit b' m =
              if m <? B then N.testbit z m else (m <? W c) && N.testbit b (m - B)).
    { intros m. unfold b'. rewrite N.lor_spec, testbit_mod_pow2, testbit_shiftl.
      destruct (N.ltb_spec m B) as [Hm|Hm].
      - rewrite (proj2 (N.leb_gt B m)) by exact Hm. rewrite andb_false_r. reflexivity.
      - rewrite (proj2 (N.leb_le B m)) by exact Hm. cbn [andb].
        rewrite (lt_pow2_high Hz Hm), orb_false_r. reflexivity. }
    split.
    - apply N.bits_inj; intros m. rewrite slot_testbit, Hbit, N.mul_0_l, N.add_0_l.
      destruct (N.ltb_spec m B) as [Hm|Hm]; cbn [andb]; [reflexivity|].
      symmetry; apply (lt_pow2_high Hz Hm).
    - intros j Hj. apply N.bits_inj; intros m. rewrite !slot_testbit, Hbit.
      destruct (N.ltb_spec m B) as [Hm|Hm]; cbn [andb]; [|reflexivity].
      pose proof (slot_off Hc Hcomp Hj) as Hoff.
      rewrite (proj2 (N.ltb_ge ((j + 1) * B + m) B)) by nia.
      rewrite (proj2 (N.ltb_lt ((j + 1) * B + m) (W c))) by lia. cbn [andb]. f_equal. lia.
  Qed.

  Lemma remove_shift_ok b z : B < W c -> b < 2 ^ W c -> z < 2 ^ B -> waste c E b = 0 ->
    exists b', remove_shift c E b z = Ret (b', slot E b 0) /\ b' < 2 ^ W c /\ waste c E b' = 0 /\
      slot E b' (P - 1) = z /\ forall j, j + 1 < P -> slot E b' j = slot E b (j + 1).
  Proof.
    intros HBW Hb Hz Hw. pose proof (Ppos Hc Hcomp Hd) as HP. pose proof (BITS_range Hc Hcomp) as [HB1 _].
    pose proof (EPB_mul Hc Hcomp) as HPB.
    assert (HPB1 : P * B = (P - 1) * B + B) by (rewrite <- (N.mul_1_l B) at 3; rewrite <- N.mul_add_distr_r; f_equal; lia).
    unfold remove_shift. rewrite (shr_ok Hc Hcomp) by exact HBW. cbn [obind].
    rewrite (shl_ok Hc Hcomp) by (apply (slot_off_lt Hc Hcomp); lia). cbn [obind].
    rewrite (MASK_ones Hc Hcomp).
    set (b' := N.lor (N.shiftr b B) (N.shiftl z ((P - 1) * B) mod 2 ^ W c)).
    exists b'. split.
    { unfold slot. rewrite N.mul_0_l, N.shiftr_0_r. reflexivity. }
    assert (Hzero : forall m, P * B <= m -> N.testbit b m = false).
    { intros m Hm. replace m with ((m - P * B) + P * B) by lia. rewrite <- testbit_shiftr.
      unfold waste in Hw. rewrite Hw. apply N.bits_0. }
    assert (Hbit : forall m, N.testbit b' m =
              if m <? (P - 1) * B then N.testbit b (m + B) else N.testbit z (m - (P - 1) * B)).
    { intros m. unfold b'. rewrite N.lor_spec, testbit_mod_pow2, testbit_shiftl, testbit_shiftr.
      destruct (N.ltb_spec m ((P - 1) * B)) as [Hm|Hm].
      - rewrite (proj2 (N.leb_gt _ m)) by exact Hm. rewrite andb_false_r, orb_false_r. reflexivity.
      - rewrite (proj2 (N.leb_le _ m)) by exact Hm. rewrite Hzero by lia. cbn [orb andb].
        destruct (N.ltb_spec m (W c)) as [HmW|HmW]; [reflexivity|].
        symmetry. apply (lt_pow2_high Hz). lia. }
    split; [apply lor_lt; [apply shiftr_lt; exact Hb|apply mod_pow2_lt]|]. split; [|split].
    - apply N.bits_inj; intros m. unfold waste. rewrite testbit_shiftr, Hbit, N.bits_0.
      rewrite (proj2 (N.ltb_ge _ _)) by nia. apply (lt_pow2_high Hz). lia.
    - apply N.bits_inj; intros m. rewrite slot_testbit, Hbit.
      rewrite (proj2 (N.ltb_ge ((P - 1) * B + m) ((P - 1) * B))) by lia.
      destruct (N.ltb_spec m B) as [Hm|Hm]; cbn [andb].
      + f_equal. lia.
      + symmetry; apply (lt_pow2_high Hz Hm).
    - intros j Hj. apply N.bits_inj; intros m. rewrite !slot_testbit, Hbit.
      destruct (N.ltb_spec m B) as [Hm|Hm]; cbn [andb]; [|reflexivity].
      rewrite (proj2 (N.ltb_lt _ _)) by nia. f_equal. lia.
  Qed.

  (** whatever the width, the closures only panic or return blocks *)
  Lemma insert_shift_safe b z : b < 2 ^ W c -> z < 2 ^ W c ->
    (insert_shift c E b z = Panic POverflow /\ ovf c = true /\ W c <= B) \/
    exists b' l, insert_shift c E b z = Ret (b', l) /\ b' < 2 ^ W c /\ l < 2 ^ W c.
  Proof.
    intros Hb Hz. unfold insert_shift. pose proof (Ppos Hc Hcomp Hd) as HP.
    rewrite (shr_ok Hc Hcomp) by (apply (slot_off_lt Hc Hcomp); lia). cbn [obind].
    unfold shl. destruct (N.ltb_spec B (W c)) as [HBW|HBW]; [|destruct (ovf c) eqn:Ho; [left; split; [reflexivity|split; [reflexivity|exact HBW]]|]]; right; cbn [obind];
      eexists; eexists; (split; [reflexivity|split; [apply lor_lt; [apply mod_pow2_lt|exact Hz]|]]);
      apply land_lt_l, shiftr_lt; exact Hb.
  Qed.
  Lemma remove_shift_safe b z : b < 2 ^ W c -> z < 2 ^ W c ->
    (remove_shift c E b z = Panic POverflow /\ ovf c = true /\ W c <= B) \/
    exists b' l, remove_shift c E b z = Ret (b', l) /\ b' < 2 ^ W c /\ l < 2 ^ W c.
  Proof.
    intros Hb Hz. unfold remove_shift. pose proof (Ppos Hc Hcomp Hd) as HP.
    rewrite (shl_ok Hc Hcomp) by (apply (slot_off_lt Hc Hcomp); lia).
    unfold shr. destruct (N.ltb_spec B (W c)) as [HBW|HBW]; [|destruct (ovf c) eqn:Ho; [left; split; [reflexivity|split; [reflexivity|exact HBW]]|]]; right; cbn [obind];
      eexists; eexists; (split; [reflexivity|split; [apply lor_lt; [apply shiftr_lt; exact Hb|apply mod_pow2_lt]|]]);
      apply land_lt_l; exact Hb.
  Qed.

  (** ** one block inside the vector *)
  Lemma store_ok w b v : w < vlen (storage v) -> store w b v = (Ret tt, set_block v w b).
  Proof. intros H. unfold store. rewrite (proj2 (N.ltb_lt _ _)) by exact H. reflexivity. Qed.
  Lemma vlen_set_block v w b : vlen (storage (set_block v w b)) = vlen (storage v).
  Proof. unfold vlen, set_block; cbn. apply lenN_updN. Qed.
  Lemma WF_set_block v w b : WF v -> b < 2 ^ W c -> WF (set_block v w b).
  Proof.
    intros [H1 H2 H3 H4 Hu] Hb. constructor; rewrite ?vlen_set_block; try assumption.
    unfold set_block; cbn. apply Forall_updN; assumption.
  Qed.
  Lemma slotv_set_block v w b i : w < vlen (storage v) ->
    slotv (set_block v w b) i = if i / P =? w then slot E b (i mod P) else slotv v i.
  Proof.
    intros H. unfold EvFacts.slotv, set_block; cbn. rewrite nthN_updN.
    rewrite (proj2 (N.ltb_lt w (lenN (data (storage v))))) by exact H. rewrite N.eqb_sym.
    destruct (_ =? w); reflexivity.
  Qed.
  Lemma wastev_set_block v w b i : w < vlen (storage v) ->
    wastev (set_block v w b) i = if i =? w then waste c E b else wastev v i.
  Proof.
    intros H. unfold EvFacts.wastev, set_block; cbn. rewrite nthN_updN.
    rewrite (proj2 (N.ltb_lt w (lenN (data (storage v))))) by exact H. rewrite N.eqb_sym.
    destruct (_ =? w); reflexivity.
  Qed.
  Lemma slotv_block v w b j : nthN (data (storage v)) w = Some b -> j < P -> slotv v (w * P + j) = slot E b j.
  Proof.
    intros Hb Hj. unfold EvFacts.slotv.
    assert (Hq : (w * P + j) / P = w) by (symmetry; apply (N.div_unique _ P w j); lia).
    assert (Hr : (w * P + j) mod P = j) by (symmetry; apply (N.mod_unique _ P w j); lia).
    rewrite Hq, Hr, Hb. reflexivity.
  Qed.

  (** ** insert *)
  Lemma insert_blocks_ok n : B < W c -> forall i prev v, WF v -> i + N.of_nat n <= vlen (storage v) -> prev < 2 ^ B ->
    okr (fun _ v' => WF v' /\ num v' = num v /\ vlen (storage v') = vlen (storage v) /\
           forall k, slotv v' k =
             if (i * P <=? k) && (k <? (i + N.of_nat n) * P)
             then (if k =? i * P then prev else slotv v (k - 1)) else slotv v k)
        never (insert_blocks c E n i prev v).
  Proof.
    intros HBW. pose proof (Ppos Hc Hcomp Hd) as HP.
    induction n as [|n IH]; intros i prev v Hw Hi Hp; cbn [insert_blocks].
    - cbn. split; [exact Hw|split; [reflexivity|split; [reflexivity|]]]. intros k.
      destruct (N.leb_spec (i * P) k); destruct (N.ltb_spec k ((i + 0) * P)); cbn [andb]; try reflexivity; nia.
    - assert (Hil : i < vlen (storage v)) by lia.
      destruct (nthN_lt_Some Hil) as [b Hb].
      pose proof (Forall_nthN (wf_blocks Hw) Hb) as Hbl. cbv beta in Hbl.
      eapply okr_reads. { unfold load. rewrite Hb. reflexivity. }
      destruct (insert_shift_ok HBW Hbl Hp) as [b' [He [Hb' [Hs0 Hs]]]].
      eapply okr_lift; [exact He|]. cbn [fst snd]. unfold bind at 1.
      rewrite store_ok by exact Hil.
      eapply okr_mono; [apply IH|..].
      + apply WF_set_block; assumption.
      + rewrite vlen_set_block. lia.
      + apply slot_lt.
      + intros u v' [G1 [G2 [G3 G4]]]. split; [exact G1|split; [exact G2|split; [rewrite G3; apply vlen_set_block|]]].
        intros k. rewrite G4. clear IH G4.
        assert (Hk : k = k / P * P + k mod P) by (rewrite N.mul_comm; apply N.div_mod; lia).
        assert (Hkm : k mod P < P) by (apply N.mod_lt; lia).
        rewrite !slotv_set_block by exact Hil.
        destruct (N.lt_ge_cases k (i * P)) as [K1|K1].
        { rewrite (proj2 (N.leb_gt _ _)) by nia. rewrite (proj2 (N.leb_gt _ _)) by nia. cbn [andb].
          destruct (N.eqb_spec (k / P) i); [nia|reflexivity]. }
        rewrite (proj2 (N.leb_le (i * P) k)) by exact K1. cbn [andb].
        destruct (N.lt_ge_cases k ((i + 1) * P)) as [K2|K2].
        { rewrite (proj2 (N.leb_gt _ _)) by exact K2. cbn [andb].
          rewrite (proj2 (N.ltb_lt _ _)) by nia.
          assert (Hki : k / P = i) by (symmetry; apply (N.div_unique k P i (k - i * P)); lia).
          rewrite Hki, N.eqb_refl. rewrite Hki in Hk.
          destruct (N.eqb_spec k (i * P)) as [->|Hne].
          - rewrite N.mod_mul by lia. exact Hs0.
          - replace (k mod P) with ((k mod P - 1) + 1) by lia. rewrite Hs by lia.
            rewrite <- (slotv_block (j := k mod P - 1) Hb) by lia. f_equal. lia. }
        rewrite (proj2 (N.leb_le _ _)) by exact K2. cbn [andb].
        replace (i + 1 + N.of_nat n) with (i + N.of_nat (S n)) by lia.
        destruct (N.ltb_spec k ((i + N.of_nat (S n)) * P)) as [K3|K3].
        * rewrite (proj2 (N.eqb_neq k (i * P))) by nia.
          destruct (N.eqb_spec k ((i + 1) * P)) as [->|Hne].
          -- rewrite <- (slotv_block (j := P - 1) Hb) by lia. f_equal. lia.
          -- destruct (N.eqb_spec ((k - 1) / P) i) as [Hx|_]; [|reflexivity].
             pose proof (N.mul_succ_div_gt (k - 1) P ltac:(lia)) as Hgt. rewrite Hx in Hgt.
             rewrite N.mul_comm, <- N.add_1_r in Hgt. clear - Hgt K2 Hne. lia.
        * destruct (N.eqb_spec (k / P) i); [nia|reflexivity].
      + intros k s [].
  Qed.

  Lemma insert_slow_ok cl n : forall i prev v ds, RC cl v ds -> i + N.of_nat n <= lenN ds -> prev < 2 ^ B ->
    okr (fun r v' => fst r = i + N.of_nat n /\ snd r < 2 ^ B /\ exists ds', RC cl v' ds' /\ lenN ds' = lenN ds /\
           (forall k, k < i \/ i + N.of_nat n <= k -> nthN ds' k = nthN ds k) /\
           (forall k, i <= k -> k <= i + N.of_nat n ->
              (if k =? i + N.of_nat n then Some (snd r) else nthN ds' k) =
              (if k =? i then Some prev else nthN ds (k - 1))))
        never (insert_slow c E n i prev v).
  Proof.
    induction n as [|n IH]; intros i prev v ds H Hi Hp; cbn [insert_slow].
    - cbn. split; [lia|split; [exact Hp|]]. exists ds. split; [exact H|split; [reflexivity|split; [auto|]]].
      intros k K1 K2. assert (k = i) by lia. subst k. rewrite N.add_0_r, N.eqb_refl. reflexivity.
    - assert (Hil : i < lenN ds) by lia. destruct (nthN_lt_Some Hil) as [d Hdn].
      eapply okr_reads. { apply (RC_get_raw_unchecked Hc Hcomp Hd H Hdn). }
      eapply okr_bind_mono.
      { apply (RC_set_raw_unchecked Hc Hcomp Hd H Hil Hp). }
      2:{ intros k s []. }
      intros u v1 H1. cbv beta in H1. eapply okr_mono.
      { apply (IH (i + 1) d v1 _ H1); [rewrite lenN_updN; lia|].
        apply (RC_lt2 Hc Hcomp Hd H Hdn). }
      2:{ intros k s []. }
      intros r v' [G1 [G2 [ds' [G3 [G4 [G5 G6]]]]]].
      split; [rewrite G1; lia|split; [exact G2|]]. exists ds'. split; [exact G3|].
      rewrite lenN_updN in G4. split; [exact G4|].
      replace (i + 1 + N.of_nat n) with (i + N.of_nat (S n)) in * by lia.
      split.
      + intros k Hk. rewrite G5 by lia. rewrite nthN_updN.
        destruct (N.eqb_spec i k); [lia|reflexivity].
      + intros k K1 K2. destruct (N.eqb_spec k i) as [->|Hne].
        * destruct (N.eqb_spec i (i + N.of_nat (S n))); [lia|].
          rewrite G5 by lia. rewrite nthN_updN, N.eqb_refl, (proj2 (N.ltb_lt _ _)) by exact Hil. reflexivity.
        * rewrite G6 by lia. destruct (N.eqb_spec k (i + 1)) as [->|Hne2].
          -- replace (i + 1 - 1) with i by lia. symmetry; exact Hdn.
          -- rewrite nthN_updN. destruct (N.eqb_spec i (k - 1)); [lia|reflexivity].
  Qed.

  Lemma div_mul_mod0 i : i mod P = 0 -> i / P * P = i.
  Proof.
    intros H. pose proof (Ppos Hc Hcomp Hd). pose proof (N.div_mod i P ltac:(lia)). lia.
  Qed.

  Lemma fixable_next i : fixable c E (i + 1) -> (1 + i / P) * P <= usize_max c.
  Proof.
    intros Hf. unfold fixable in Hf. pose proof (Ppos Hc Hcomp Hd) as HP. pose proof (N.mul_div_le i P ltac:(lia)) as Hi.
    pose proof (N.mul_div_le (usize_max c) P ltac:(lia)) as Hu. set (q := i / P) in *. set (u := usize_max c / P) in *. clearbody q u.
    assert (q < u) as Hlt by (apply (N.mul_lt_mono_pos_l P); lia).
    assert (P * (1 + q) <= P * u) by (apply N.mul_le_mono_l; lia). rewrite N.mul_comm. lia.
  Qed.
  Lemma fixable_end i : fixable c E i -> 0 < i mod P -> i - i mod P + P <= usize_max c.
  Proof.
    intros Hf Hm. pose proof (Ppos Hc Hcomp Hd) as HP. pose proof (N.div_mod i P ltac:(lia)) as Hi. pose proof (N.mod_lt i P ltac:(lia)).
    assert (Hp : fixable c E (i - 1 + 1)) by (replace (i - 1 + 1) with i by lia; exact Hf). apply fixable_next in Hp.
    assert ((i - 1) / P = i / P) as Hq.
    { symmetry. apply N.div_unique with (i mod P - 1); [lia|]. set (q := P * (i / P)) in *. clearbody q. lia. }
    rewrite Hq in Hp. replace ((1 + i / P) * P) with (P * (i / P) + P) in Hp by ring. set (q := P * (i / P)) in *. clearbody q. lia.
  Qed.
  Lemma RC_insert cl v ds index x : fixable c E index -> B < W c -> RC cl v ds -> index <= lenN ds ->
    okr (fun _ v' => RC false v' (insertN ds index (to_d E x)))
        (push_fails c E cl v ds) (insert c E index x v).
  Proof.
    intros Hfix HBW H Hidx. unfold insert. pose proof (Ppos Hc Hcomp Hd) as HP.
    set (d := to_d E x). pose proof (EPB_le_W Hc Hcomp) as HPW.
    eapply okr_bind_mono; [apply (RC_push Hc Hcomp Hd x H)| |auto].
    intros u v1 H1. cbv beta in H1. fold d in H1. cbv zeta.
    set (ds1 := ds ++ [d]) in *.
    assert (HL1 : lenN ds1 = lenN ds + 1) by (unfold ds1; rewrite lenN_app; reflexivity).
    assert (Hds1 : forall k, k < lenN ds -> nthN ds1 k = nthN ds k) by (intros k Hk; apply nthN_app_l; exact Hk).
    eapply okr_reads; [reflexivity|]. unfold len. rewrite (rc_num H1), HL1.
    eapply okr_bind_mono with
      (Q1 := fun r v2 => index <= fst r /\ fst r <= lenN ds + 1 /\ (fst r = lenN ds + 1 \/ fst r mod P = 0) /\
         snd r < 2 ^ B /\ exists ds2, RC cl v2 ds2 /\ lenN ds2 = lenN ds + 1 /\
           (forall k, k < index \/ fst r <= k -> nthN ds2 k = nthN ds1 k) /\
           (forall k, index <= k -> k <= fst r ->
              (if k =? fst r then Some (snd r) else nthN ds2 k) =
              (if k =? index then Some d else nthN ds1 (k - 1)))) (F1 := never).
    { destruct (N.ltb_spec 0 (index mod P)) as [Hslow|Hslow].
      - pose proof (N.mod_le index P ltac:(lia)) as Hml. pose proof (N.mod_lt index P ltac:(lia)) as Hmlt.
        eapply okr_lift. { apply (usub_ok Hc Hcomp). exact Hml. }
        eapply okr_lift. { apply (uadd_ok Hc Hcomp). apply fixable_end; assumption. }
        set (sl := N.min (index - index mod P + P) (lenN ds + 1)).
        assert (Hsl : index <= sl) by (unfold sl; lia).
        eapply okr_mono.
        { apply (insert_slow_ok (n := N.to_nat (sl - index)) (i := index) (prev := d) H1); [|apply Hd].
          rewrite HL1. unfold sl. lia. }
        2:{ intros k s []. }
        intros r v2 [G1 [G2 [ds2 [G3 [G4 [G5 G6]]]]]].
        replace (index + N.of_nat (N.to_nat (sl - index))) with sl in * by lia.
        rewrite G1. split; [exact Hsl|]. split; [unfold sl; lia|]. split.
        + destruct (N.le_gt_cases (lenN ds + 1) (index - index mod P + P)); [left; unfold sl; lia|right].
          unfold sl. rewrite N.min_l by lia.
          replace (index - index mod P + P) with ((index / P + 1) * P).
          * apply N.mod_mul. lia.
          * pose proof (N.div_mod index P ltac:(lia)). lia.
        + split; [exact G2|]. exists ds2. split; [exact G3|split; [lia|split; [exact G5|exact G6]]].
      - cbn. split; [lia|]. split; [lia|]. split; [right; lia|]. split; [apply Hd|]. exists ds1.
        split; [exact H1|split; [exact HL1|split; [auto|]]].
        intros k K1 K2. assert (k = index) by lia. subst k. rewrite N.eqb_refl. reflexivity. }
    2:{ intros k s []. }
    intros r v2 [R1 [R2 [R3 [R4 [ds2 [H2 [HL2 [Q1 Q2]]]]]]]].
    eapply okr_reads; [reflexivity|]. unfold len. rewrite (rc_num H2), HL2.
    assert (Hfinal : forall v' (f : N -> N), WF v' -> num v' = lenN ds + 1 ->
       (forall k, k < lenN ds + 1 -> slotv v' k = if k <? fst r then slotv v2 k else if k =? fst r then snd r else slotv v2 (k - 1)) ->
       RC false v' (insertN ds index d)).
    { intros v' _ Hw Hn Hs. constructor; [exact Hw| | |discriminate].
      - rewrite Hn, lenN_insertN by exact Hidx. reflexivity.
      - intros k e Hk. pose proof (nthN_Some_lt Hk) as Hlt. rewrite lenN_insertN in Hlt by exact Hidx.
        rewrite nthN_insertN in Hk by exact Hidx. rewrite Hs by exact Hlt.
        destruct (N.ltb_spec k (fst r)) as [K1|K1].
        + apply (rc_slot H2). destruct (N.ltb_spec k index) as [K2|K2].
          * rewrite Q1 by lia. rewrite Hds1 by lia. exact Hk.
          * specialize (Q2 k K2 ltac:(lia)). destruct (N.eqb_spec k (fst r)); [lia|]. rewrite Q2.
            destruct (N.eqb_spec k index); [exact Hk|]. rewrite Hds1 by lia. exact Hk.
        + destruct (N.ltb_spec k index); [lia|].
          destruct (N.eqb_spec k (fst r)) as [K2|K2].
          * specialize (Q2 k ltac:(lia) ltac:(lia)). destruct (N.eqb_spec k (fst r)); [|lia].
            destruct (N.eqb_spec k index); [congruence|]. rewrite Hds1 in Q2 by lia. congruence.
          * destruct (N.eqb_spec k index); [lia|]. apply (rc_slot H2).
            rewrite Q1 by lia. rewrite Hds1 by lia. exact Hk. }
    destruct (N.ltb_spec (fst r) (lenN ds + 1)) as [Hlt|Hge].
    - destruct R3 as [R3|R3]; [lia|].
      eapply okr_lift. { apply (usub_ok Hc Hcomp). lia. }
      cbn [fst block_index]. unfold block_index; cbn [fst].
      replace (lenN ds + 1 - 1) with (lenN ds) by lia.
      rewrite (castB Hc Hcomp) by exact R4.
      pose proof (RC_cover Hc Hcomp Hd H2) as Hcv. rewrite HL2 in Hcv.
      assert (Hq : lenN ds / P < vlen (storage v2)) by (apply (divP_lt Hc Hcomp); lia).
      assert (Hib : fst r / P <= lenN ds / P) by (apply N.div_le_mono; lia).
      eapply okr_mono.
      { apply (insert_blocks_ok (n := N.to_nat (lenN ds / P + 1 - fst r / P)) HBW (i := fst r / P) (prev := snd r) (v := v2)).
        - apply (rc_wf H2).
        - lia.
        - exact R4. }
      2:{ intros k s []. }
      intros u2 v' [G1 [G2 [G3 G4]]]. apply (Hfinal v' (fun k => k)); [exact G1|rewrite G2, (rc_num H2); exact HL2|].
      intros k Hk. rewrite G4, (div_mul_mod0 R3).
      pose proof (N.mul_succ_div_gt (lenN ds) P ltac:(lia)) as Hgt.
      rewrite (proj2 (N.ltb_lt k _)).
      2:{ replace (fst r / P + N.of_nat (N.to_nat (lenN ds / P + 1 - fst r / P))) with (N.succ (lenN ds / P)) by lia. lia. }
      rewrite andb_true_r. destruct (N.leb_spec (fst r) k); destruct (N.ltb_spec k (fst r)); try lia; reflexivity.
    - cbn. apply (Hfinal v2 (fun k => k)); [apply (rc_wf H2)|rewrite (rc_num H2); exact HL2|].
      intros k Hk. destruct (N.ltb_spec k (fst r)); [reflexivity|lia].
  Qed.

  (** index > len: acts as push (or panics after the push when the index overflows in debug) *)
  Lemma RC_insert_past cl v ds index x : RC cl v ds -> lenN ds < index -> index <= usize_max c ->
    okr (fun _ v' => RC cl v' (ds ++ [to_d E x]))
        (fun k v' => push_fails c E cl v ds k v' \/
           (k = POverflow /\ ovf c = true /\ usize_max c < index + P /\ RC cl v' (ds ++ [to_d E x])))
        (insert c E index x v).
  Proof.
    intros H Hidx Hmax. unfold insert. pose proof (Ppos Hc Hcomp Hd) as HP.
    eapply okr_bind_mono; [apply (RC_push Hc Hcomp Hd x H)| |].
    2:{ intros k v' G. left; exact G. }
    intros u v1 H1. cbv beta in H1. cbv zeta.
    assert (HL1 : num v1 = lenN ds + 1) by (rewrite (rc_num H1), lenN_app; reflexivity).
    pose proof (usize_pow Hc Hcomp) as Hup.
    eapply okr_reads; [reflexivity|].
    eapply okr_bind_mono with (Q1 := fun r v2 => fst r = index /\ v2 = v1)
      (F1 := fun k v2 => k = POverflow /\ ovf c = true /\ usize_max c < index + P /\ v2 = v1).
    { destruct (N.ltb_spec 0 (index mod P)) as [Hslow|Hslow].
      - pose proof (N.mod_le index P ltac:(lia)) as Hml. pose proof (N.mod_lt index P ltac:(lia)) as Hmlt.
        eapply okr_lift. { apply (usub_ok Hc Hcomp). exact Hml. }
        unfold uadd. destruct (N.leb_spec (index - index mod P + P) (usize_max c)) as [Hle|Hgt].
        + eapply okr_lift; [reflexivity|]. unfold len. rewrite HL1.
          replace (N.to_nat (N.min (index - index mod P + P) (lenN ds + 1) - index)) with O by lia.
          cbn. auto.
        + destruct (ovf c).
          * cbn. split; [reflexivity|split; [reflexivity|split; [lia|reflexivity]]].
          * eapply okr_lift; [reflexivity|]. unfold len. rewrite HL1.
            replace (N.to_nat (N.min _ (lenN ds + 1) - index)) with O by lia.
            cbn. auto.
      - cbn. auto. }
    - intros r v2 [R1 ->]. eapply okr_reads; [reflexivity|]. unfold len. rewrite HL1, R1.
      rewrite (proj2 (N.ltb_ge _ _)) by lia. cbn. exact H1.
    - intros k v2 [K1 [K2 [K3 ->]]]. right. auto.
  Qed.

  (** safety of insert for every width and index *)
  Lemma insert_blocks_safe n : forall i prev v, WF v -> i + N.of_nat n <= vlen (storage v) -> prev < 2 ^ W c ->
    okr (fun _ v' => WF v' /\ num v' = num v) (fun k v' => k = POverflow /\ ovf c = true /\ WF v' /\ num v' = num v) (insert_blocks c E n i prev v).
  Proof.
    induction n as [|n IH]; intros i prev v Hw Hi Hp; cbn [insert_blocks].
    - cbn. auto.
    - assert (Hil : i < vlen (storage v)) by lia.
      destruct (nthN_lt_Some Hil) as [b Hb].
      pose proof (Forall_nthN (wf_blocks Hw) Hb) as Hbl. cbv beta in Hbl.
      eapply okr_reads. { unfold load. rewrite Hb. reflexivity. }
      destruct (insert_shift_safe Hbl Hp) as [[He [Ho HBW]]|[b' [l [He [Hb' Hl]]]]].
      + unfold bind at 1, lift. rewrite He. cbn. auto.
      + eapply okr_lift; [exact He|]. cbn [fst snd]. unfold bind at 1. rewrite store_ok by exact Hil.
        apply (IH (i + 1) l (set_block v i b')); [apply WF_set_block; assumption|rewrite vlen_set_block; lia|exact Hl].
  Qed.

  Lemma insert_slow_safe n : forall v i prev, WF v -> i + N.of_nat n <= num v ->
    okr (fun _ v' => WF v' /\ num v' = num v) never (insert_slow c E n i prev v).
  Proof.
    induction n as [|n IH]; intros v i prev Hw Hi; cbn [insert_slow]; [cbn; auto|].
    pose proof (wf_cover Hw) as Hcv.
    eapply okr_reads. { apply (get_raw_unchecked_spec Hc Hcomp). lia. }
    unfold bind at 1. rewrite (set_raw_unchecked_spec Hc Hcomp) by lia.
    eapply okr_mono; [apply IH|..].
    - apply (WF_set_at Hc Hcomp), Hw.
    - rewrite (num_set_at Hc Hcomp). lia.
    - intros r v' [G1 G2]. rewrite (num_set_at Hc Hcomp) in G2. auto.
    - intros k v' [].
  Qed.
  (** what insert does after its push, whatever the index, the width and the slots *)
  Lemma insert_tail_safe v1 index x0 : WF v1 -> 
    okr (fun _ v' => WF v' /\ num v' = num v1) (fun k v' => k = POverflow /\ ovf c = true /\ WF v' /\ num v' = num v1)
      ((length <- reads (fun v => Ret (len v)) ;;
        r <- (if 0 <? index mod P then
            l0 <- lift (usub c index (index mod P)) ;;
            l1 <- lift (uadd c l0 P) ;;
            insert_slow c E (N.to_nat (N.min l1 length - index)) index x0
          else ret (index, x0)) ;;
        self_len <- reads (fun v => Ret (len v)) ;;
        (if fst r <? self_len then
          l <- lift (usub c self_len 1) ;;
          insert_blocks c E (N.to_nat (fst (block_index c E l) + 1 - fst (block_index c E (fst r)))) (fst (block_index c E (fst r))) (cast_block c (snd r))
         else ret tt)) v1).
  Proof.
    intros H1. pose proof (Ppos Hc Hcomp Hd) as HP. eapply okr_reads; [reflexivity|].
    assert (Hs : forall l1, okr (fun _ v' => WF v' /\ num v' = num v1) (fun k v' => k = POverflow /\ ovf c = true /\ WF v' /\ num v' = num v1)
      (insert_slow c E (N.to_nat (N.min l1 (len v1) - index)) index x0 v1)).
    { intros l1. destruct (N.le_gt_cases index (num v1)) as [Hi|Hi].
      - eapply okr_mono; [apply insert_slow_safe; [exact H1|unfold len; lia]|..]; [auto|intros k v' []].
      - replace (N.to_nat _) with O by (unfold len; lia). cbn. auto. }
    eapply okr_bind_mono with (Q1 := fun _ v' => WF v' /\ num v' = num v1) (F1 := fun k v' => k = POverflow /\ ovf c = true /\ WF v' /\ num v' = num v1); [| |auto].
    { destruct (0 <? index mod P); [|cbn; auto].
      eapply okr_lift. { apply (usub_ok Hc Hcomp). apply N.mod_le. lia. }
      unfold bind at 1, lift, uadd. destruct (index - index mod P + P <=? usize_max c); [apply Hs|].
      destruct (ovf c) eqn:Ho; [cbn; auto|apply Hs]. }
    intros [i prev] v2 [H2 Hn2]. cbn [fst snd]. eapply okr_reads; [reflexivity|].
    destruct (N.ltb_spec i (len v2)) as [Hi|Hi]; [|cbn; auto].
    eapply okr_lift. { apply (usub_ok Hc Hcomp). lia. }
    unfold block_index; cbn [fst]. unfold len in *.
    pose proof (wf_cover H2) as Hcv. pose proof (divP_lt Hc Hcomp (i := num v2 - 1) (n := vlen (storage v2)) ltac:(lia)) as Hd1.
    pose proof (N.div_le_mono i (num v2 - 1) P ltac:(lia) ltac:(lia)).
    eapply okr_mono; [apply insert_blocks_safe|..].
    - exact H2.
    - lia.
    - apply mod_pow2_lt.
    - intros u2 v' [G1 G2]. split; [exact G1|lia].
    - intros k v' [G0 [G1 [G2 G3]]]. split; [exact G0|split; [exact G1|split; [exact G2|lia]]].
  Qed.
  Lemma RC_insert_safe cl v ds index x : RC cl v ds ->
    okr (fun _ v' => WF v' /\ num v' = num v + 1)
        (fun k v' => push_fails c E cl v ds k v' \/ (k = POverflow /\ ovf c = true /\ WF v' /\ num v' = num v + 1))
        (insert c E index x v).
  Proof.
    intros H. unfold insert. eapply okr_bind_mono; [apply (RC_push Hc Hcomp Hd x H)| |auto].
    intros u v1 H1. cbv beta in H1. cbv zeta.
    assert (HL1 : num v1 = num v + 1) by (rewrite (rc_num H1), (rc_num H), lenN_app; reflexivity).
    eapply okr_mono; [apply (insert_tail_safe index (to_d E x) (rc_wf H1))|..].
    - intros u2 v' [G1 G2]. split; [exact G1|lia].
    - intros k v' [G0 [G1 [G2 G3]]]. right. split; [exact G0|split; [exact G1|split; [exact G2|lia]]].
  Qed.

  (** ** remove *)
  Lemma remove_slow_ok cl n : forall i v ds, RC cl v ds -> i + N.of_nat n < lenN ds ->
    okr (fun r v' => r = i + N.of_nat n /\ exists ds', RC cl v' ds' /\ lenN ds' = lenN ds /\
           forall k, nthN ds' k = if (i <=? k) && (k <? i + N.of_nat n) then nthN ds (k + 1) else nthN ds k)
        never (remove_slow c E n i v).
  Proof.
    induction n as [|n IH]; intros i v ds H Hi; cbn [remove_slow].
    - cbn. split; [lia|]. exists ds. split; [exact H|split; [reflexivity|]]. intros k.
      destruct (N.leb_spec i k); destruct (N.ltb_spec k (i + 0)); cbn [andb]; try reflexivity; lia.
    - assert (Hil : i + 1 < lenN ds) by lia. destruct (nthN_lt_Some Hil) as [d Hdn].
      eapply okr_reads. { apply (RC_get_raw_unchecked Hc Hcomp Hd H Hdn). }
      eapply okr_bind_mono.
      { apply (RC_set_raw_unchecked Hc Hcomp Hd (i := i) (d := d) H); [lia|].
        apply (RC_lt2 Hc Hcomp Hd H Hdn). }
      2:{ intros k s []. }
      intros u v1 H1. cbv beta in H1. eapply okr_mono.
      { apply (IH (i + 1) v1 _ H1). rewrite lenN_updN. lia. }
      2:{ intros k s []. }
      intros r v' [G1 [ds' [G2 [G3 G4]]]]. rewrite lenN_updN in G3.
      split; [lia|]. exists ds'. split; [exact G2|split; [exact G3|]].
      intros k. rewrite G4. rewrite !nthN_updN.
      replace (i + 1 + N.of_nat n) with (i + N.of_nat (S n)) by lia.
      rewrite (proj2 (N.ltb_lt i (lenN ds))) by lia.
      destruct (N.lt_trichotomy k i) as [K|[K|K]].
      + rewrite (proj2 (N.leb_gt (i + 1) k)), (proj2 (N.leb_gt i k)), (proj2 (N.eqb_neq i k)) by lia. reflexivity.
      + subst k. rewrite (proj2 (N.leb_gt (i + 1) i)), (proj2 (N.leb_le i i)), N.eqb_refl by lia. cbn [andb].
        rewrite (proj2 (N.ltb_lt i (i + N.of_nat (S n)))) by lia. symmetry; exact Hdn.
      + rewrite (proj2 (N.leb_le (i + 1) k)), (proj2 (N.leb_le i k)), (proj2 (N.eqb_neq i k)), (proj2 (N.eqb_neq i (k + 1))) by lia.
        reflexivity.
  Qed.

  Lemma remove_blocks_ok n : B < W c -> forall ib prev v, WF v -> clean c E v ->
    ib + N.of_nat n <= vlen (storage v) -> prev < 2 ^ B ->
    okr (fun _ v' => WF v' /\ clean c E v' /\ num v' = num v /\
           forall k, slotv v' k =
             if (ib * P <=? k) && (k <? (ib + N.of_nat n) * P)
             then (if k + 1 =? (ib + N.of_nat n) * P then prev else slotv v (k + 1)) else slotv v k)
        never (remove_blocks c E n ib prev v).
  Proof.
    intros HBW. pose proof (Ppos Hc Hcomp Hd) as HP.
    induction n as [|n IH]; intros ib prev v Hw Hcl Hi Hp; cbn [remove_blocks].
    - cbn. split; [exact Hw|split; [exact Hcl|split; [reflexivity|]]]. intros k.
      destruct (N.leb_spec (ib * P) k); destruct (N.ltb_spec k ((ib + 0) * P)); cbn [andb]; try reflexivity; nia.
    - set (i := ib + N.of_nat n). assert (Hil : i < vlen (storage v)) by lia.
      destruct (nthN_lt_Some Hil) as [b Hb].
      pose proof (Forall_nthN (wf_blocks Hw) Hb) as Hbl. cbv beta in Hbl.
      eapply okr_reads. { unfold load. rewrite Hb. reflexivity. }
      assert (Hwb : waste c E b = 0). { specialize (Hcl i). unfold EvFacts.wastev in Hcl. rewrite Hb in Hcl. exact Hcl. }
      destruct (remove_shift_ok HBW Hbl Hp Hwb) as [b' [He [Hb' [Hwb' [Hs0 Hs]]]]].
      eapply okr_lift; [exact He|]. cbn [fst snd]. unfold bind at 1.
      rewrite store_ok by exact Hil.
      eapply okr_mono; [apply IH|..].
      + apply WF_set_block; assumption.
      + intros w. rewrite wastev_set_block by exact Hil. destruct (w =? i); [exact Hwb'|apply Hcl].
      + rewrite vlen_set_block. lia.
      + apply slot_lt.
      + intros u v' [G1 [G2 [G3 G4]]]. split; [exact G1|split; [exact G2|split; [exact G3|]]].
        intros k. rewrite G4. clear IH G4. fold i.
        replace (ib + N.of_nat (S n)) with (i + 1) by (unfold i; lia).
        assert (Hibi : ib <= i) by (unfold i; lia).
        assert (HibP : ib * P <= i * P) by (apply N.mul_le_mono_r; exact Hibi).
        rewrite N.mul_add_distr_r, N.mul_1_l. clearbody i.
        assert (Hdiv : forall q, q / P = i <-> i * P <= q /\ q < i * P + P).
        { intros q. split.
          - intros <-. pose proof (N.div_mod q P ltac:(lia)). pose proof (N.mod_lt q P ltac:(lia)). lia.
          - intros [L1 L2]. symmetry. apply (N.div_unique q P i (q - i * P)); lia. }
        rewrite !slotv_set_block by exact Hil.
        destruct (N.lt_ge_cases k (ib * P)) as [K1|K1].
        { rewrite (proj2 (N.leb_gt (ib * P) k)) by exact K1. cbn [andb].
          destruct (N.eqb_spec (k / P) i) as [Hx|]; [apply Hdiv in Hx; lia|reflexivity]. }
        rewrite (proj2 (N.leb_le (ib * P) k)) by exact K1. cbn [andb].
        destruct (N.lt_ge_cases k (i * P)) as [K2|K2].
        { rewrite (proj2 (N.ltb_lt k (i * P))) by exact K2.
          rewrite (proj2 (N.ltb_lt k (i * P + P))), (proj2 (N.eqb_neq (k + 1) (i * P + P))) by lia.
          destruct (N.eqb_spec (k + 1) (i * P)) as [K3|K3].
          - rewrite K3. rewrite <- (slotv_block (j := 0) Hb) by lia. f_equal. lia.
          - destruct (N.eqb_spec ((k + 1) / P) i) as [Hx|]; [apply Hdiv in Hx; lia|reflexivity]. }
        rewrite (proj2 (N.ltb_ge k (i * P))) by exact K2.
        destruct (N.lt_ge_cases k (i * P + P)) as [K3|K3].
        * rewrite (proj2 (N.ltb_lt k (i * P + P))) by exact K3.
          assert (Hki : k / P = i) by (apply Hdiv; lia). rewrite Hki, N.eqb_refl.
          assert (Hkm : k mod P = k - i * P).
          { pose proof (N.div_mod k P ltac:(lia)) as Hx. rewrite Hki in Hx. lia. }
          rewrite Hkm. destruct (N.eqb_spec (k + 1) (i * P + P)) as [K4|K4].
          -- replace (k - i * P) with (P - 1) by lia. exact Hs0.
          -- rewrite Hs by lia. rewrite <- (slotv_block (j := k - i * P + 1) Hb) by lia. f_equal. lia.
        * rewrite (proj2 (N.ltb_ge k (i * P + P))) by exact K3.
          destruct (N.eqb_spec (k / P) i) as [Hx|]; [apply Hdiv in Hx; lia|reflexivity].
      + intros k s [].
  Qed.

  Lemma remove_blocks_safe n : forall ib prev v, WF v -> ib + N.of_nat n <= vlen (storage v) -> prev < 2 ^ W c ->
    okr (fun _ v' => WF v' /\ num v' = num v)
        (fun k v' => k = POverflow /\ ovf c = true /\ W c <= B /\ WF v' /\ num v' = num v) (remove_blocks c E n ib prev v).
  Proof.
    induction n as [|n IH]; intros ib prev v Hw Hi Hp; cbn [remove_blocks].
    - cbn. auto.
    - assert (Hil : ib + N.of_nat n < vlen (storage v)) by lia.
      destruct (nthN_lt_Some Hil) as [b Hb].
      pose proof (Forall_nthN (wf_blocks Hw) Hb) as Hbl. cbv beta in Hbl.
      eapply okr_reads. { unfold load. rewrite Hb. reflexivity. }
      destruct (remove_shift_safe Hbl Hp) as [[He [Ho HBW]]|[b' [l [He [Hb' Hl]]]]].
      + unfold bind at 1, lift. rewrite He. cbn. auto.
      + eapply okr_lift; [exact He|]. cbn [fst snd]. unfold bind at 1. rewrite store_ok by exact Hil.
        apply (IH ib l (set_block v (ib + N.of_nat n) b')); [apply WF_set_block; assumption|rewrite vlen_set_block; lia|exact Hl].
  Qed.

  Lemma remove_oob cl v ds index : RC cl v ds -> lenN ds <= index -> remove c E index v = (Panic PUnwrap, v).
  Proof.
    intros H Hi. unfold remove, bind at 1, reads at 1. rewrite (RC_get Hc Hcomp Hd _ H).
    rewrite nthN_ge_None by exact Hi. reflexivity.
  Qed.
  Lemma remove_bad cl v ds index d : RC cl v ds -> nthN ds index = Some d -> from_d E d = None ->
    remove c E index v = (Panic PDiscr, v).
  Proof.
    intros H Hi Hf. unfold remove, bind at 1, reads at 1. rewrite (RC_get Hc Hcomp Hd _ H), Hi.
    unfold from_discr. rewrite Hf. reflexivity.
  Qed.

  (** the elements removed fall in the last one or two blocks, so no block is shifted *)
  Definition remove_local (n index : N) : Prop := n <= (index / P + 1) * P + 1.

  Lemma RC_remove cl v ds index d x : fixable c E (index + 1) -> RC cl v ds -> nthN ds index = Some d -> from_d E d = Some x ->
    (B < W c /\ cl = true) \/ remove_local (lenN ds) index ->
    okr (fun r v' => r = x /\ RC cl v' (removeN ds index)) never (remove c E index v).
  Proof.
    intros Hfix H Hdn Hx Hg. unfold remove. pose proof (Ppos Hc Hcomp Hd) as HP.
    pose proof (RC_max Hc Hcomp Hd H) as Hsm. pose proof (EPB_le_W Hc Hcomp) as HPW.
    pose proof (nthN_Some_lt Hdn) as Hidx.
    eapply okr_reads. { rewrite (RC_get Hc Hcomp Hd _ H), Hdn. unfold from_discr. rewrite Hx. reflexivity. }
    eapply okr_reads. { unfold len. rewrite (rc_num H). apply (usub_ok Hc Hcomp). lia. }
    unfold block_index; cbn [fst].
    pose proof (N.div_mod index P ltac:(lia)) as Hdm. pose proof (N.mod_lt index P ltac:(lia)) as Hml.
    eapply okr_lift. { apply (umul_ok Hc Hcomp). apply fixable_next, Hfix. }
    cbv zeta. set (bl := (1 + index / P) * P). set (sl := N.min (lenN ds - 1) bl).
    assert (Hbl : index < bl) by (unfold bl; lia).
    assert (Hblm : bl mod P = 0) by (unfold bl; apply N.mod_mul; lia).
    eapply okr_bind_mono.
    { apply (remove_slow_ok (n := N.to_nat (sl - index)) (i := index) H). unfold sl. lia. }
    2:{ intros k s []. }
    intros i v1 [-> [ds1 [H1 [HL1 Hn1]]]].
    assert (Hsl1 : index <= sl /\ sl <= lenN ds - 1 /\ (sl = lenN ds - 1 \/ sl = bl)) by (unfold sl; lia).
    replace (index + N.of_nat (N.to_nat (sl - index))) with sl in * by (clear - Hsl1; lia).
    assert (Hblv : bl = (index / P + 1) * P) by (unfold bl; f_equal; apply N.add_comm).
    clearbody sl bl. clear Hdm Hml Hsm HPW.
    eapply okr_reads. { unfold len. rewrite (rc_num H1), HL1. apply (usub_ok Hc Hcomp). lia. }
    assert (Hlast : lenN ds - 1 < lenN ds1) by lia.
    destruct (nthN_lt_Some Hlast) as [pr Hpr].
    eapply okr_reads. { apply (RC_get_raw_unchecked Hc Hcomp Hd H1 Hpr). }
    eapply okr_reads. { rewrite (rc_num H1), HL1. apply (usub_ok Hc Hcomp). lia. }
    unfold bind at 1, set_len. set (v2 := mkEv (storage v1) (lenN ds - 1)).
    eapply okr_reads; [reflexivity|]. change (len v2) with (lenN ds - 1).
    assert (H2 : RC cl v2 (firstn (N.to_nat (lenN ds - 1)) ds1)) by (apply (RC_set_len_le Hc Hcomp Hd H1); lia).
    destruct (N.ltb_spec sl (lenN ds - 1)) as [Hlt|Hge].
    - assert (Hsl : sl = bl) by (clear - Hsl1 Hlt; lia).
      destruct Hg as [[HBW ->]|Hg];
        [|exfalso; unfold remove_local in Hg; rewrite <- Hblv, <- Hsl in Hg; clear - Hg Hlt; lia].
      clear Hblv Hsl1.
      apply okr_bind. eapply okr_lift. { apply (usub_ok Hc Hcomp). lia. }
      pose proof (RC_cover Hc Hcomp Hd H1) as Hcv. rewrite HL1 in Hcv.
      replace (lenN ds - 1 - 1) with (lenN ds - 2) by lia.
      assert (Hq : (lenN ds - 2) / P < vlen (storage v1)) by (apply (divP_lt Hc Hcomp); lia).
      assert (Hib : sl / P <= (lenN ds - 2) / P) by (apply N.div_le_mono; lia).
      pose proof (RC_lt2 Hc Hcomp Hd H1 Hpr) as Hprl.
      rewrite (castB Hc Hcomp) by exact Hprl.
      eapply okr_mono.
      { apply (remove_blocks_ok (n := N.to_nat ((lenN ds - 2) / P + 1 - sl / P)) HBW (ib := sl / P) (prev := pr) (v := v2)).
        - apply (rc_wf H2).
        - apply (rc_clean H2 eq_refl).
        - change (vlen (storage v2)) with (vlen (storage v1)). lia.
        - exact Hprl. }
      2:{ intros k s []. }
      intros u v' [G1 [G2 [G3 G4]]]. cbn. split; [reflexivity|].
      constructor; [exact G1| | |intros _; exact G2].
      + rewrite G3, lenN_removeN by exact Hidx. reflexivity.
      + intros k e Hk. pose proof (nthN_Some_lt Hk) as Hkl. rewrite lenN_removeN in Hkl by exact Hidx.
        rewrite nthN_removeN in Hk by exact Hidx.
        rewrite G4. rewrite Hsl, (div_mul_mod0 Hblm).
        rewrite Hsl in Hib.
        replace (bl / P + N.of_nat (N.to_nat ((lenN ds - 2) / P + 1 - bl / P))) with ((lenN ds - 2) / P + 1) by lia.
        set (top := ((lenN ds - 2) / P + 1) * P).
        assert (Htop : lenN ds - 2 < top).
        { unfold top. pose proof (N.mul_succ_div_gt (lenN ds - 2) P ltac:(lia)). lia. }
        clearbody top. clear Hib Hq Hcv Hprl.
        rewrite (proj2 (N.ltb_lt k top)) by lia. rewrite andb_true_r.
        change (EvFacts.slotv c E v2) with (EvFacts.slotv c E v1).
        destruct (N.leb_spec bl k) as [K1|K1].
        * rewrite (proj2 (N.ltb_ge k index)) in Hk by lia.
          assert (Hk1 : nthN ds1 (k + 1) = Some e).
          { rewrite Hn1. rewrite (proj2 (N.ltb_ge (k + 1) sl)) by lia. rewrite andb_false_r. exact Hk. }
          destruct (N.eqb_spec (k + 1) top) as [K2|K2].
          -- replace (lenN ds - 1) with (k + 1) in Hpr by lia. congruence.
          -- apply (rc_slot H1 Hk1).
        * apply (rc_slot H1). rewrite Hn1. destruct (N.ltb_spec k index) as [K2|K2].
          -- rewrite (proj2 (N.leb_gt index k)) by exact K2. exact Hk.
          -- rewrite (proj2 (N.leb_le index k)) by exact K2.
             rewrite (proj2 (N.ltb_lt k sl)) by (rewrite Hsl; exact K1). exact Hk.
    - rewrite bind_ret. cbn. split; [reflexivity|].
      replace (removeN ds index) with (firstn (N.to_nat (lenN ds - 1)) ds1); [exact H2|].
      apply listN_ext. intros k. rewrite nthN_removeN by exact Hidx.
      destruct (N.lt_ge_cases k (lenN ds - 1)) as [K|K].
      + rewrite nthN_firstn by lia. rewrite Hn1. destruct (N.ltb_spec k index) as [K2|K2].
        * rewrite (proj2 (N.leb_gt index k)) by exact K2. reflexivity.
        * rewrite (proj2 (N.leb_le index k)), (proj2 (N.ltb_lt k sl)) by lia. reflexivity.
      + rewrite nthN_ge_None by (rewrite lenN_firstn; lia).
        rewrite (proj2 (N.ltb_ge k index)) by lia. rewrite nthN_ge_None by lia. reflexivity.
  Qed.

  (** safety of remove for every width and whatever the unused bits hold *)
  Lemma RC_remove_safe cl v ds index : RC cl v ds ->
    okr (fun r v' => WF v' /\ num v' + 1 = num v /\ exists d, nthN ds index = Some d /\ from_d E d = Some r)
        (fun k v' => (k = PUnwrap /\ v' = v /\ lenN ds <= index) \/
                     (k = PDiscr /\ v' = v /\ exists d, nthN ds index = Some d /\ from_d E d = None) \/
                     (k = POverflow /\ ovf c = true /\ W c <= B /\ WF v' /\ num v' + 1 = num v) \/
                     (k = POverflow /\ ovf c = true /\ v' = v /\ usize_max c < (1 + index / P) * P))
        (remove c E index v).
  Proof.
    intros H. destruct (nthN ds index) as [d|] eqn:Hdn.
    2:{ assert (Hi : lenN ds <= index).
        { destruct (N.le_gt_cases (lenN ds) index) as [|Hlt]; [assumption|].
          destruct (nthN_lt_Some Hlt) as [y Hy]. congruence. }
        rewrite (remove_oob H Hi). cbn. left. auto. }
    destruct (from_d E d) as [x|] eqn:Hx.
    2:{ rewrite (remove_bad H Hdn Hx). cbn. right; left. split; [reflexivity|split; [reflexivity|]]. eauto. }
    unfold remove. pose proof (Ppos Hc Hcomp Hd) as HP.
    pose proof (RC_max Hc Hcomp Hd H) as Hsm. pose proof (EPB_le_W Hc Hcomp) as HPW.
    pose proof (nthN_Some_lt Hdn) as Hidx.
    eapply okr_reads. { rewrite (RC_get Hc Hcomp Hd _ H), Hdn. unfold from_discr. rewrite Hx. reflexivity. }
    eapply okr_reads. { unfold len. rewrite (rc_num H). apply (usub_ok Hc Hcomp). lia. }
    unfold block_index; cbn [fst].
    pose proof (N.div_mod index P ltac:(lia)) as Hdm. pose proof (N.mod_lt index P ltac:(lia)) as Hml.
    assert (Hum : (umul c (1 + index / P) P = Panic POverflow /\ ovf c = true /\ usize_max c < (1 + index / P) * P) \/ exists bl, umul c (1 + index / P) P = Ret bl).
    { unfold umul. destruct (N.leb_spec ((1 + index / P) * P) (usize_max c)); [right; eauto|].
      destruct (ovf c) eqn:Ho; [left; auto|right; eauto]. }
    destruct Hum as [[Hum [Ho Hov]]|[bl Hum]].
    { unfold bind at 1, lift. rewrite Hum. cbn. right; right; right. auto. }
    eapply okr_lift; [exact Hum|]. clear Hum.
    cbv zeta. set (n := N.to_nat (N.min (lenN ds - 1) bl - index)).
    assert (Hn : index + N.of_nat n < lenN ds) by (unfold n; lia). clearbody n. clear bl.
    eapply okr_bind_mono.
    { apply (remove_slow_ok (n := n) (i := index) H). exact Hn. }
    2:{ intros k s []. }
    intros i v1 [-> [ds1 [H1 [HL1 Hn1]]]].
    set (sl := index + N.of_nat n) in *. clearbody sl. clear Hdm Hml Hsm HPW.
    eapply okr_reads. { unfold len. rewrite (rc_num H1), HL1. apply (usub_ok Hc Hcomp). lia. }
    assert (Hlast : lenN ds - 1 < lenN ds1) by lia.
    destruct (nthN_lt_Some Hlast) as [pr Hpr].
    eapply okr_reads. { apply (RC_get_raw_unchecked Hc Hcomp Hd H1 Hpr). }
    eapply okr_reads. { rewrite (rc_num H1), HL1. apply (usub_ok Hc Hcomp). lia. }
    unfold bind at 1, set_len. set (v2 := mkEv (storage v1) (lenN ds - 1)).
    eapply okr_reads; [reflexivity|]. change (len v2) with (lenN ds - 1).
    assert (H2 : RC cl v2 (firstn (N.to_nat (lenN ds - 1)) ds1)) by (apply (RC_set_len_le Hc Hcomp Hd H1); lia).
    pose proof (rc_num H) as Hnum.
    destruct (N.ltb_spec sl (lenN ds - 1)) as [Hlt|Hge].
    - apply okr_bind. eapply okr_lift. { apply (usub_ok Hc Hcomp). lia. }
      pose proof (RC_cover Hc Hcomp Hd H1) as Hcv. rewrite HL1 in Hcv.
      replace (lenN ds - 1 - 1) with (lenN ds - 2) by lia.
      assert (Hq : (lenN ds - 2) / P < vlen (storage v1)) by (apply (divP_lt Hc Hcomp); lia).
      assert (Hib : sl / P <= (lenN ds - 2) / P) by (apply N.div_le_mono; lia).
      eapply okr_mono; [apply remove_blocks_safe|..].
      + apply (rc_wf H2).
      + change (vlen (storage v2)) with (vlen (storage v1)). lia.
      + apply mod_pow2_lt.
      + intros u v' [G1 G2]. cbn. change (num v2) with (lenN ds - 1) in G2.
        split; [exact G1|split; [lia|eauto]].
      + intros k v' [K1 [K2 [K3 [G1 G2]]]]. right; right; left. change (num v2) with (lenN ds - 1) in G2.
        split; [exact K1|split; [exact K2|split; [exact K3|split; [exact G1|lia]]]].
    - rewrite bind_ret. cbn. split; [apply (rc_wf H2)|]. split; [lia|eauto].
  Qed.
End Shift.
