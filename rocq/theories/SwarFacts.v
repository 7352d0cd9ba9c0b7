(** SwarFacts.v -- the bit tricks of any() and all(). *)
From Verif Require Export ShiftFacts.
From Coq Require Import ZifyBool ZifyNat ZifyN.
Open Scope N_scope.
Set Implicit Arguments.
Unset Strict Implicit.
Set Default Proof Using "Type*".

(** n copies of the b-bit number d *)
Fixpoint rep (b : N) (n : nat) (d : N) : N :=
  match n with O => 0 | S n' => rep b n' d + d * 2 ^ (N.of_nat n' * b) end.

Lemma lor_add_disjoint a b n : a < 2 ^ n -> N.lor a (N.shiftl b n) = a + b * 2 ^ n.
Proof.
  intros H. rewrite <- N.shiftl_mul_pow2. rewrite N.add_nocarry_lxor.
  - symmetry. apply N.lxor_lor. apply N.bits_inj; intros m. rewrite N.land_spec, testbit_shiftl, N.bits_0.
    destruct (N.leb_spec n m); cbn [andb]; [|apply andb_false_r]. rewrite (lt_pow2_high H) by assumption. reflexivity.
  - apply N.bits_inj; intros m. rewrite N.land_spec, testbit_shiftl, N.bits_0.
    destruct (N.leb_spec n m); cbn [andb]; [|apply andb_false_r]. rewrite (lt_pow2_high H) by assumption. reflexivity.
Qed.

Lemma rep_bits b n d : 1 <= b -> d < 2 ^ b -> forall m,
  N.testbit (rep b n d) m = (m <? N.of_nat n * b) && N.testbit d (m mod b).
Proof.
  intros Hb Hd. induction n as [|n IH]; intros m.
  - cbn [rep]. rewrite N.bits_0. change (N.of_nat 0) with 0. rewrite N.mul_0_l.
    rewrite (proj2 (N.ltb_ge m 0)) by lia. reflexivity.
  - cbn [rep]. assert (Hlt : rep b n d < 2 ^ (N.of_nat n * b)).
    { apply lt_pow2_testbit. intros p Hp. rewrite IH. rewrite (proj2 (N.ltb_ge p _)) by exact Hp. reflexivity. }
    rewrite <- lor_add_disjoint by exact Hlt. rewrite N.lor_spec, testbit_shiftl, IH.
    assert (Hsn : N.of_nat (S n) * b = N.of_nat n * b + b) by lia. rewrite Hsn.
    set (q := N.of_nat n * b). assert (Hq : q mod b = 0) by (apply N.mod_mul; lia).
    destruct (N.lt_ge_cases m q) as [Hm|Hm].
    + rewrite (proj2 (N.ltb_lt m q)), (proj2 (N.leb_gt q m)), (proj2 (N.ltb_lt m (q + b))) by lia.
      apply orb_false_r.
    + rewrite (proj2 (N.ltb_ge m q)), (proj2 (N.leb_le q m)) by lia. cbn [andb orb].
      destruct (N.lt_ge_cases m (q + b)) as [Hm2|Hm2].
      * rewrite (proj2 (N.ltb_lt m (q + b))) by lia. cbn [andb]. f_equal.
        symmetry. replace m with ((m - q) + N.of_nat n * b) at 1 by (unfold q in *; lia).
        rewrite N.mod_add by lia. apply N.mod_small. lia.
      * rewrite (proj2 (N.ltb_ge m (q + b))) by lia. cbn [andb]. apply (lt_pow2_high Hd). lia.
Qed.
Lemma rep_lt b n d : 1 <= b -> d < 2 ^ b -> rep b n d < 2 ^ (N.of_nat n * b).
Proof.
  intros Hb Hd. apply lt_pow2_testbit. intros p Hp. rewrite rep_bits by assumption.
  rewrite (proj2 (N.ltb_ge p _)) by exact Hp. reflexivity.
Qed.
Lemma rep_mul b n d : d * rep b n 1 = rep b n d.
Proof. induction n as [|n IH]; cbn [rep]; [lia|]. rewrite N.mul_add_distr_l, IH. lia. Qed.
Lemma rep_geom b n : rep b n 1 * (2 ^ b - 1) + 1 = 2 ^ (N.of_nat n * b).
Proof.
  induction n as [|n IH]; cbn [rep]; [reflexivity|].
  replace (N.of_nat (S n) * b) with (N.of_nat n * b + b) by lia. rewrite N.pow_add_r.
  pose proof (pow2_pos b) as Hp. rewrite N.mul_1_l. revert IH. generalize (rep b n 1) (2 ^ (N.of_nat n * b)).
  intros r q IH. assert (exists p, 2 ^ b = p + 1) as [p Ep] by (exists (2 ^ b - 1); lia).
  rewrite Ep in *. replace (p + 1 - 1) with p in * by lia. rewrite N.mul_add_distr_r. rewrite N.mul_add_distr_l. lia.
Qed.

Lemma least_zero (f : N -> N) n :
  (forall j, j < N.of_nat n -> f j <> 0) \/
  (exists k, k < N.of_nat n /\ f k = 0 /\ forall j, j < k -> f j <> 0).
Proof.
  induction n as [|n [IH|[k [H1 [H2 H3]]]]].
  - left. intros j Hj. lia.
  - destruct (N.eq_dec (f (N.of_nat n)) 0) as [Hz|Hz].
    + right. exists (N.of_nat n). split; [lia|split; [exact Hz|exact IH]].
    + left. intros j Hj. destruct (N.eq_dec j (N.of_nat n)) as [->|]; [exact Hz|apply IH; lia].
  - right. exists k. split; [lia|auto].
Qed.

Lemma borrow s a b z Q vh Rh Z : 1 < Q -> vh = Q * a + s -> Rh = Q * b + 1 -> Z = z * Q -> b < z ->
  vh + Z - Rh = (s + Q - 1) + (a + z - b - 1) * Q.
Proof.
  intros HQ -> -> -> Hb. assert (exists k, z = b + 1 + k) as [k ->] by (exists (z - b - 1); lia).
  replace (a + (b + 1 + k) - b - 1) with (a + k) by lia. rewrite !N.mul_add_distr_r. lia.
Qed.

Section Swar.
  Context {T : Type} {c : cfg} {E : enumlike T}.
  Local Notation B := (BITS E).
  Local Notation P := (EPB c E).
  Local Notation Pn := (N.to_nat (EPB c E)).
  Hypothesis Hc : cfg_ok c.
  Hypothesis Hcomp : compiles c E = true.

  Lemma B1 : 1 <= B.
  Proof. apply (BITS_range Hc Hcomp). Qed.
  Lemma PnP : N.of_nat Pn = P.
  Proof. lia. Qed.
  Lemma one_lt : 1 < 2 ^ B.
  Proof. pose proof B1. change 1 with (2 ^ 0). apply pow2_lt. lia. Qed.

  Lemma slot_div b k : slot E b k = (b / 2 ^ (k * B)) mod 2 ^ B.
  Proof. unfold slot. rewrite N.shiftr_div_pow2, N.land_ones. reflexivity. Qed.

  Lemma one_mask_eq : one_mask c E = Ret (rep B Pn 1).
  Proof.
    unfold one_mask. pose proof B1 as HB1. pose proof (Wmod_lt Hc Hcomp) as Hr.
    pose proof (BITS_range Hc Hcomp) as [_ [_ HBW]].
    rewrite (shr_ok Hc Hcomp) by lia. f_equal.
    rewrite (MASK_ones Hc Hcomp). unfold bones. rewrite !ones_eq.
    pose proof (W_split Hc Hcomp) as Hs. set (r := W c mod B) in *.
    pose proof (rep_geom B Pn) as Hg. rewrite PnP in Hg. set (R := rep B Pn 1) in *.
    pose proof (pow2_pos B) as Hpb. pose proof (pow2_pos r) as Hpr.
    assert (Hrb : 2 ^ r < 2 ^ B) by (apply pow2_lt; exact Hr).
    assert (Hdiv : (2 ^ W c - 1) / (2 ^ B - 1) = 2 ^ r * R).
    { symmetry. apply N.div_unique with (2 ^ r - 1); [lia|].
      rewrite Hs, N.pow_add_r, <- Hg. set (M := 2 ^ B - 1) in *. lia. }
    rewrite Hdiv, N.mul_comm, <- N.shiftl_mul_pow2, N.shiftr_shiftl_r, N.sub_diag by lia.
    apply N.shiftr_0_r.
  Qed.

  Lemma x_mask_eq x : to_d E x < 2 ^ B -> x_mask c E x = Ret (rep B Pn (to_d E x)).
  Proof.
    intros Hd. unfold x_mask. rewrite one_mask_eq. cbn [obind]. rewrite (castB Hc Hcomp) by exact Hd.
    unfold bmul. rewrite rep_mul. rewrite (proj2 (N.ltb_lt _ _)); [reflexivity|].
    apply N.lt_le_trans with (2 ^ (N.of_nat Pn * B)); [apply rep_lt; [apply B1|exact Hd]|].
    apply pow2_le. rewrite PnP. apply (EPB_mul Hc Hcomp).
  Qed.

  Lemma slot_rep d k : d < 2 ^ B -> k < P -> slot E (rep B Pn d) k = d.
  Proof.
    intros Hd Hk. pose proof B1 as HB1. apply N.bits_inj; intros m.
    rewrite slot_testbit, rep_bits by assumption. rewrite PnP.
    destruct (N.ltb_spec m B) as [Hm|Hm]; cbn [andb].
    - rewrite (proj2 (N.ltb_lt _ _)) by nia. cbn [andb].
      rewrite N.add_comm, N.mod_add, N.mod_small by lia. reflexivity.
    - symmetry; apply (lt_pow2_high Hd Hm).
  Qed.

  (** low part of a block whose first k slots are non-zero *)
  Lemma mod_step v k : v mod 2 ^ ((k + 1) * B) = v mod 2 ^ (k * B) + slot E v k * 2 ^ (k * B).
  Proof.
    rewrite slot_div. replace ((k + 1) * B) with (k * B + B) by lia. rewrite N.pow_add_r.
    rewrite N.mod_mul_r by (apply N.pow_nonzero; discriminate). lia.
  Qed.
  Lemma low_ge v n : (forall j, j < N.of_nat n -> slot E v j <> 0) -> rep B n 1 <= v mod 2 ^ (N.of_nat n * B).
  Proof.
    induction n as [|n IH]; intros H; cbn [rep].
    - apply N.le_0_l.
    - replace (N.of_nat (S n)) with (N.of_nat n + 1) by lia. rewrite mod_step.
      specialize (IH ltac:(intros j Hj; apply H; lia)). specialize (H (N.of_nat n) ltac:(lia)).
      pose proof (pow2_pos (N.of_nat n * B)). nia.
  Qed.
  Lemma rep_mod n k : (k <= n)%nat -> exists q, rep B n 1 = rep B k 1 + q * 2 ^ (N.of_nat k * B).
  Proof.
    induction n as [|n IH]; intros H.
    - exists 0. replace k with O by lia. reflexivity.
    - destruct (Nat.eq_dec k (S n)) as [->|Hne]; [exists 0; lia|].
      destruct (IH ltac:(lia)) as [q Hq]. cbn [rep]. rewrite Hq.
      exists (q + 2 ^ (N.of_nat n * B - N.of_nat k * B)).
      rewrite N.mul_add_distr_r, <- N.pow_add_r.
      replace (N.of_nat n * B - N.of_nat k * B + N.of_nat k * B) with (N.of_nat n * B) by nia. lia.
  Qed.

  Lemma slot_sub v k : v < 2 ^ W c -> k < P -> (forall j, j < k -> slot E v j <> 0) ->
    slot E (bwrapping_sub c v (rep B Pn 1)) k = (slot E v k + 2 ^ B - 1) mod 2 ^ B.
  Proof.
    intros Hv Hk Hnz. pose proof B1 as HB1. pose proof one_lt as H1B.
    set (R := rep B Pn 1). pose proof (slot_off Hc Hcomp Hk) as Hoff.
    assert (HR : R < 2 ^ W c).
    { apply N.lt_le_trans with (2 ^ (N.of_nat Pn * B)); [apply rep_lt; [exact HB1|exact H1B]|].
      apply pow2_le. rewrite PnP. apply (EPB_mul Hc Hcomp). }
    assert (Hmodslot : forall u, slot E (u mod 2 ^ W c) k = slot E u k).
    { intros u. apply N.bits_inj; intros m. rewrite !slot_testbit, testbit_mod_pow2.
      destruct (N.ltb_spec m B) as [Hm|Hm]; cbn [andb]; [|reflexivity].
      rewrite (proj2 (N.ltb_lt _ _)) by lia. reflexivity. }
    unfold bwrapping_sub. rewrite Hmodslot.
    pose proof (slot_rep H1B Hk) as HsR. fold R in HsR.
    pose proof (@low_ge v (N.to_nat k)) as Hlow. rewrite N2Nat.id in Hlow. specialize (Hlow Hnz).
    destruct (@rep_mod Pn (N.to_nat k)) as [Rh HRh]; [lia|]. fold R in HRh. rewrite N2Nat.id in HRh.
    set (S := 2 ^ (k * B)) in *. assert (HS : 0 < S) by (apply pow2_pos).
    set (Rl := rep B (N.to_nat k) 1) in *.
    assert (HRl : Rl < S). { unfold Rl, S. rewrite <- (N2Nat.id k) at 2. apply rep_lt; [exact HB1|exact H1B]. }
    pose proof (N.div_mod v S ltac:(lia)) as Hvd. pose proof (N.mod_lt v S ltac:(lia)) as Hvl.
    set (vh := v / S) in *. set (vl := v mod S) in *.
    assert (HWs : 2 ^ W c = S * 2 ^ (W c - k * B)) by (unfold S; rewrite <- N.pow_add_r; f_equal; lia).
    set (Z := 2 ^ (W c - k * B)) in *.
    assert (HRdiv : R / S = Rh).
    { symmetry. apply N.div_unique with Rl; [exact HRl|]. lia. }
    assert (HRhZ : Rh < Z).
    { apply N.mul_lt_mono_pos_l with S; [exact HS|]. rewrite <- HWs. lia. }
    assert (Hu : (v + 2 ^ W c - R) / S = vh + Z - Rh).
    { symmetry. apply N.div_unique with (vl - Rl); [lia|].
      rewrite HWs, HRh, Hvd.
      assert (S * (vh + Z - Rh) + S * Rh = S * vh + S * Z) by (rewrite <- !N.mul_add_distr_l; f_equal; lia). lia. }
    rewrite !slot_div. fold S. rewrite Hu. fold vh.
    rewrite slot_div in HsR. fold S in HsR. rewrite HRdiv in HsR.
    assert (HZ : exists z, Z = z * 2 ^ B).
    { exists (2 ^ (W c - k * B - B)). unfold Z. rewrite <- N.pow_add_r. f_equal. clear - Hoff. lia. }
    destruct HZ as [z Hz]. set (Q := 2 ^ B) in *. clearbody vh vl Rl.
    pose proof (N.div_mod vh Q ltac:(lia)) as Hvh. pose proof (N.mod_lt vh Q ltac:(lia)) as Hvhl.
    pose proof (N.div_mod Rh Q ltac:(lia)) as HRhd. rewrite HsR in HRhd.
    set (s := vh mod Q) in *. set (a := vh / Q) in *. set (b := Rh / Q) in *.
    assert (Hbz : b < z).
    { apply N.mul_lt_mono_pos_l with Q; [clear - H1B; lia|]. rewrite (N.mul_comm Q z), <- Hz.
      apply N.le_lt_trans with Rh; [|exact HRhZ]. rewrite HRhd. apply N.le_add_r. }
    rewrite (borrow H1B Hvh HRhd Hz Hbz).
    apply N.mod_add. clear - H1B. lia.
  Qed.

  Lemma high_bit s : s < 2 ^ B -> N.testbit s (B - 1) = (2 ^ (B - 1) <=? s).
  Proof.
    intros Hs. pose proof B1 as HB1.
    assert (Hp : 2 ^ B = 2 * 2 ^ (B - 1)).
    { rewrite <- N.pow_succ_r'. f_equal. lia. }
    destruct (N.leb_spec (2 ^ (B - 1)) s) as [H|H].
    - rewrite N.testbit_true. assert (Hq : 1 = s / 2 ^ (B - 1)).
      { apply N.div_unique with (s - 2 ^ (B - 1)); lia. }
      rewrite <- Hq. reflexivity.
    - apply (lt_pow2_high H). lia.
  Qed.

  Lemma haszero_spec v : v < 2 ^ W c -> exists high,
    shl c (rep B Pn 1) (B - 1) = Ret high /\
    (haszero c (rep B Pn 1) high v = true <-> exists k, k < P /\ slot E v k = 0).
  Proof.
    intros Hv. pose proof B1 as HB1. pose proof (BITS_range Hc Hcomp) as [_ [_ HBW]]. pose proof one_lt as H1B.
    rewrite (shl_ok Hc Hcomp) by lia. eexists; split; [reflexivity|].
    set (high := N.shiftl (rep B Pn 1) (B - 1) mod 2 ^ W c).
    set (R := rep B Pn 1).
    assert (Hhigh : forall n, N.testbit high n = true -> exists k, k < P /\ n = k * B + (B - 1)).
    { intros n Hn. unfold high in Hn. rewrite testbit_mod_pow2, testbit_shiftl, rep_bits in Hn by assumption.
      rewrite PnP in Hn.
      apply andb_true_iff in Hn; destruct Hn as [_ Hn]. apply andb_true_iff in Hn; destruct Hn as [Hn0 Hn].
      apply andb_true_iff in Hn; destruct Hn as [Hn1 Hn]. apply N.leb_le in Hn0. apply N.ltb_lt in Hn1.
      exists ((n - (B - 1)) / B).
      assert (Hm0 : (n - (B - 1)) mod B = 0).
      { destruct ((n - (B - 1)) mod B) as [|p]; [reflexivity|]. destruct p; discriminate. }
      pose proof (N.div_mod (n - (B - 1)) B ltac:(lia)) as Hdm. rewrite Hm0 in Hdm.
      split; [|clear - Hdm Hn0 HB1; revert Hdm; generalize ((n - (B - 1)) / B); intros; lia]. apply N.div_lt_upper_bound; lia. }
    assert (Hhigh2 : forall k, k < P -> N.testbit high (k * B + (B - 1)) = true).
    { intros k Hk. pose proof (slot_off Hc Hcomp Hk). unfold high.
      rewrite testbit_mod_pow2, testbit_shiftl, rep_bits by assumption. rewrite PnP.
      rewrite (proj2 (N.ltb_lt _ (W c))), (proj2 (N.leb_le (B - 1) _)), (proj2 (N.ltb_lt _ (P * B))) by nia.
      replace (k * B + (B - 1) - (B - 1)) with (k * B) by lia. rewrite N.mod_mul by lia. reflexivity. }
    assert (Hbit : forall u k, k < P -> N.testbit u (k * B + (B - 1)) = N.testbit (slot E u k) (B - 1)).
    { intros u k Hk. rewrite slot_testbit. rewrite (proj2 (N.ltb_lt (B - 1) B)) by lia. reflexivity. }
    assert (HWk : forall k, k < P -> k * B + (B - 1) < W c).
    { intros k Hk. pose proof (slot_off Hc Hcomp Hk). lia. }
    assert (Hp : 2 ^ B = 2 * 2 ^ (B - 1)) by (rewrite <- N.pow_succ_r'; f_equal; lia).
    pose proof (pow2_pos (B - 1)) as Hpp.
    unfold haszero. rewrite negb_true_iff, N.eqb_neq.
    split.
    - intros Hne. destruct (least_zero (fun k => slot E v k) Pn) as [Hall|[k [K1 [K2 _]]]]; rewrite PnP in *.
      2:{ exists k; auto. }
      exfalso. apply Hne. apply N.bits_inj; intros n. rewrite N.bits_0, !N.land_spec.
      destruct (N.testbit high n) eqn:Hn; [|apply andb_false_r]. rewrite andb_true_r.
      destruct (Hhigh n Hn) as [k [Hk ->]].
      unfold bnot. rewrite testbit_lnot. rewrite (proj2 (N.ltb_lt _ _)) by (apply HWk; exact Hk).
      rewrite !Hbit by exact Hk. unfold R.
      rewrite slot_sub by (try assumption; intros j Hj; apply Hall; lia).
      pose proof (slot_lt (E := E) v k) as Hs. specialize (Hall k Hk). cbv beta in Hall.
      replace (slot E v k + 2 ^ B - 1) with ((slot E v k - 1) + 1 * 2 ^ B) by lia.
      rewrite N.mod_add by lia. rewrite N.mod_small by lia.
      rewrite !high_bit by lia. rewrite xorb_true_r.
      destruct (N.leb_spec (2 ^ (B - 1)) (slot E v k - 1)); destruct (N.leb_spec (2 ^ (B - 1)) (slot E v k)); try reflexivity; lia.
    - intros [k0 [Hk0 Hz0]].
      destruct (least_zero (fun k => slot E v k) Pn) as [Hall|[k [K1 [K2 K3]]]]; rewrite PnP in *.
      { exfalso. apply (Hall k0 Hk0). exact Hz0. }
      intros Hne. assert (Hb : N.testbit (N.land (N.land (bwrapping_sub c v R) (bnot c v)) high) (k * B + (B - 1)) = false).
      { rewrite Hne. apply N.bits_0. }
      rewrite !N.land_spec, Hhigh2, andb_true_r in Hb by exact K1.
      unfold bnot in Hb. rewrite testbit_lnot in Hb. rewrite (proj2 (N.ltb_lt _ _)) in Hb by (apply HWk; exact K1).
      rewrite !Hbit in Hb by exact K1. unfold R in Hb. rewrite slot_sub in Hb by assumption.
      rewrite K2 in Hb. rewrite N.add_0_l, N.mod_small in Hb by lia.
      rewrite !high_bit in Hb by lia. rewrite (proj2 (N.leb_le _ _)), (proj2 (N.leb_gt _ 0)) in Hb by lia. discriminate.
  Qed.
End Swar.
