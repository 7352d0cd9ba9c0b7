(** BitFacts.v -- general lemmas: N arithmetic, bits, N-indexed lists, outcome monad. *)
From Verif Require Import EnumVec.
From Coq Require Import ZifyBool ZifyNat ZifyN.
Open Scope N_scope.
Set Implicit Arguments.
Unset Strict Implicit.

Lemma ones_eq n : N.ones n = 2 ^ n - 1.
Proof. rewrite N.ones_equiv, N.sub_1_r; reflexivity. Qed.

Lemma pow2_pos n : 0 < 2 ^ n.
Proof. apply N.neq_0_lt_0, N.pow_nonzero; discriminate. Qed.

Lemma pow2_le a b : a <= b -> 2 ^ a <= 2 ^ b.
Proof. intros H; apply N.pow_le_mono_r; [discriminate|exact H]. Qed.

Lemma pow2_lt a b : a < b -> 2 ^ a < 2 ^ b.
Proof. intros H; apply N.pow_lt_mono_r; [reflexivity|exact H]. Qed.

Lemma lt_pow2_testbit a n : a < 2 ^ n <-> (forall m, n <= m -> N.testbit a m = false).
Proof.
  split.
  - intros H m Hm. destruct (N.eq_dec a 0) as [->|Ha]; [apply N.bits_0|].
    apply N.bits_above_log2. apply N.lt_le_trans with n; [|exact Hm].
    apply N.log2_lt_pow2; lia.
  - intros H. assert (Hm : a mod 2 ^ n = a).
    { apply N.bits_inj; intros m. destruct (N.le_gt_cases n m) as [Hm|Hm].
      - rewrite N.mod_pow2_bits_high by exact Hm. symmetry; apply H; exact Hm.
      - apply N.mod_pow2_bits_low; exact Hm. }
    rewrite <- Hm. apply N.mod_lt, N.pow_nonzero; discriminate.
Qed.

Lemma lt_pow2_high a n m : a < 2 ^ n -> n <= m -> N.testbit a m = false.
Proof. intros H Hm. apply lt_pow2_testbit with n; assumption. Qed.

Lemma testbit_mod_pow2 a n m : N.testbit (a mod 2 ^ n) m = (m <? n) && N.testbit a m.
Proof.
  destruct (N.ltb_spec m n) as [H|H]; cbn [andb].
  - apply N.mod_pow2_bits_low; exact H.
  - apply N.mod_pow2_bits_high; exact H.
Qed.

Lemma testbit_ones n m : N.testbit (N.ones n) m = (m <? n).
Proof.
  destruct (N.ltb_spec m n) as [H|H].
  - apply N.ones_spec_low; exact H.
  - apply N.ones_spec_high; exact H.
Qed.

Lemma testbit_shiftl a n m : N.testbit (N.shiftl a n) m = (n <=? m) && N.testbit a (m - n).
Proof.
  destruct (N.leb_spec n m) as [H|H]; cbn [andb].
  - apply N.shiftl_spec_high'; exact H.
  - apply N.shiftl_spec_low; exact H.
Qed.

Lemma testbit_shiftr a n m : N.testbit (N.shiftr a n) m = N.testbit a (m + n).
Proof. apply N.shiftr_spec'. Qed.

Lemma testbit_lnot a n m : N.testbit (N.lnot a n) m = xorb (N.testbit a m) (m <? n).
Proof. unfold N.lnot. rewrite N.lxor_spec, testbit_ones. reflexivity. Qed.

Lemma lor_lt a b n : a < 2 ^ n -> b < 2 ^ n -> N.lor a b < 2 ^ n.
Proof.
  rewrite !lt_pow2_testbit; intros Ha Hb m Hm.
  rewrite N.lor_spec, Ha, Hb by exact Hm. reflexivity.
Qed.
Lemma land_lt_l a b n : a < 2 ^ n -> N.land a b < 2 ^ n.
Proof.
  rewrite !lt_pow2_testbit; intros Ha m Hm. rewrite N.land_spec, Ha by exact Hm. reflexivity.
Qed.
Lemma land_lt_r a b n : b < 2 ^ n -> N.land a b < 2 ^ n.
Proof. rewrite N.land_comm. apply land_lt_l. Qed.
Lemma lxor_lt a b n : a < 2 ^ n -> b < 2 ^ n -> N.lxor a b < 2 ^ n.
Proof.
  rewrite !lt_pow2_testbit; intros Ha Hb m Hm.
  rewrite N.lxor_spec, Ha, Hb by exact Hm. reflexivity.
Qed.
Lemma shiftr_lt a k n : a < 2 ^ n -> N.shiftr a k < 2 ^ n.
Proof.
  rewrite !lt_pow2_testbit; intros Ha m Hm. rewrite testbit_shiftr. apply Ha; lia.
Qed.
Lemma mod_pow2_lt a n : a mod 2 ^ n < 2 ^ n.
Proof. apply N.mod_lt, N.pow_nonzero; discriminate. Qed.
Lemma ones_lt n : N.ones n < 2 ^ n.
Proof. rewrite ones_eq. pose proof (pow2_pos n); lia. Qed.

(** N-indexed lists *)
Lemma lenN_app A (l1 l2 : list A) : lenN (l1 ++ l2) = lenN l1 + lenN l2.
Proof. unfold lenN. rewrite app_length. lia. Qed.
Lemma lenN_repeat A (x : A) n : lenN (repeat x n) = N.of_nat n.
Proof. unfold lenN. rewrite repeat_length. reflexivity. Qed.
Lemma lenN_firstn A n (l : list A) : lenN (firstn n l) = N.min (N.of_nat n) (lenN l).
Proof. unfold lenN. rewrite firstn_length. lia. Qed.
Lemma lenN_nil A : lenN (@nil A) = 0.
Proof. reflexivity. Qed.
Lemma lenN_cons A (x : A) l : lenN (x :: l) = lenN l + 1.
Proof. unfold lenN. cbn [length]. lia. Qed.
Lemma upd_length A (l : list A) i x : length (upd l i x) = length l.
Proof. revert i; induction l as [|h t IH]; intros [|i]; cbn; try rewrite IH; reflexivity. Qed.
Lemma lenN_updN A (l : list A) i x : lenN (updN l i x) = lenN l.
Proof. unfold lenN, updN. rewrite upd_length. reflexivity. Qed.
Lemma nth_error_upd A (l : list A) i j x :
  nth_error (upd l i x) j =
  if Nat.eqb i j then (if Nat.ltb i (length l) then Some x else None) else nth_error l j.
Proof.
  revert i j; induction l as [|h t IH]; intros [|i] [|j]; cbn; try reflexivity.
  - destruct (Nat.eqb i j); reflexivity.
  - rewrite IH. reflexivity.
Qed.
Lemma nthN_updN A (l : list A) i j x :
  nthN (updN l i x) j = if i =? j then (if i <? lenN l then Some x else None) else nthN l j.
Proof.
  unfold nthN, updN, lenN. rewrite nth_error_upd.
  destruct (N.eqb_spec i j) as [->|H].
  - rewrite Nat.eqb_refl.
    destruct (N.ltb_spec j (N.of_nat (length l))), (Nat.ltb_spec (N.to_nat j) (length l)); try reflexivity; lia.
  - destruct (Nat.eqb_spec (N.to_nat i) (N.to_nat j)); [lia|reflexivity].
Qed.
Lemma nthN_Some_lt A (l : list A) i x : nthN l i = Some x -> i < lenN l.
Proof. unfold nthN, lenN; intros H. assert (N.to_nat i < length l)%nat; [|lia]. apply nth_error_Some. congruence. Qed.
Lemma nthN_lt_Some A (l : list A) i : i < lenN l -> exists x, nthN l i = Some x.
Proof.
  unfold nthN, lenN; intros H. destruct (nth_error l (N.to_nat i)) as [x|] eqn:Hx; [eauto|].
  apply nth_error_None in Hx. lia.
Qed.
Lemma nthN_ge_None A (l : list A) i : lenN l <= i -> nthN l i = None.
Proof. unfold nthN, lenN; intros H. apply nth_error_None. lia. Qed.
Lemma nthN_app_l A (l1 l2 : list A) i : i < lenN l1 -> nthN (l1 ++ l2) i = nthN l1 i.
Proof. unfold nthN, lenN; intros H. apply nth_error_app1. lia. Qed.
Lemma nthN_app_r A (l1 l2 : list A) i : lenN l1 <= i -> nthN (l1 ++ l2) i = nthN l2 (i - lenN l1).
Proof. unfold nthN, lenN; intros H. rewrite nth_error_app2 by lia. f_equal. lia. Qed.
Lemma nth_error_firstn_lt A (l : list A) n i : (i < n)%nat -> nth_error (firstn n l) i = nth_error l i.
Proof.
  revert n i; induction l as [|h t IH]; intros [|n] [|i] H; cbn; try reflexivity; try lia.
  apply IH; lia.
Qed.
Lemma nthN_firstn A (l : list A) n i : i < N.of_nat n -> nthN (firstn n l) i = nthN l i.
Proof. unfold nthN; intros H. apply nth_error_firstn_lt. lia. Qed.
Lemma nth_error_skipn A (l : list A) n i : nth_error (skipn n l) i = nth_error l (n + i).
Proof.
  revert l; induction n as [|n IH]; intros [|h t]; cbn; try reflexivity.
  - destruct i; reflexivity.
  - apply IH.
Qed.
Lemma nth_error_repeat_lt A (x : A) n i : (i < n)%nat -> nth_error (repeat x n) i = Some x.
Proof. revert i; induction n as [|n IH]; intros [|i] H; cbn; try reflexivity; try lia. apply IH; lia. Qed.
Lemma nthN_repeat A (x : A) n i : i < N.of_nat n -> nthN (repeat x n) i = Some x.
Proof. unfold nthN; intros H; apply nth_error_repeat_lt; lia. Qed.
Lemma list_ext A (l1 l2 : list A) : (forall i, nth_error l1 i = nth_error l2 i) -> l1 = l2.
Proof.
  revert l2; induction l1 as [|h t IH]; intros [|h2 t2] H.
  - reflexivity.
  - specialize (H O); discriminate.
  - specialize (H O); discriminate.
  - f_equal; [specialize (H O); cbn in H; congruence|]. apply IH; intros i; exact (H (S i)).
Qed.
Lemma listN_ext A (l1 l2 : list A) : (forall i, nthN l1 i = nthN l2 i) -> l1 = l2.
Proof.
  intros H; apply list_ext; intros i. specialize (H (N.of_nat i)). unfold nthN in H.
  rewrite Nat2N.id in H. exact H.
Qed.
Lemma Forall_updN A (P : A -> Prop) l i x : Forall P l -> P x -> Forall P (updN l i x).
Proof.
  intros H Hx. apply Forall_forall; intros y Hy. apply In_nth_error in Hy. destruct Hy as [n Hn].
  unfold updN in Hn. rewrite nth_error_upd in Hn. rewrite Forall_forall in H.
  destruct (Nat.eqb _ _).
  - destruct (Nat.ltb _ _); congruence.
  - apply H. eapply nth_error_In; eassumption.
Qed.
Lemma Forall_nthN A (P : A -> Prop) l i x : Forall P l -> nthN l i = Some x -> P x.
Proof. intros H Hx. rewrite Forall_forall in H. apply H. eapply nth_error_In; exact Hx. Qed.
Lemma Forall_firstn A (P : A -> Prop) n l : Forall P l -> Forall P (firstn n l).
Proof. intros H; revert n; induction H; intros [|n]; cbn; constructor; auto. Qed.
Lemma Forall_repeat A (P : A -> Prop) x n : P x -> Forall P (repeat x n).
Proof. intros H; induction n; cbn; constructor; auto. Qed.

(** Monad *)
Lemma bind_Ret S A B (m : M S A) (f : A -> M S B) s a s' :
  m s = (Ret a, s') -> bind m f s = f a s'.
Proof. unfold bind; intros ->; reflexivity. Qed.
Lemma bind_lift S A B (a : A) (f : A -> M S B) s : bind (lift (Ret a)) f s = f a s.
Proof. reflexivity. Qed.
Lemma bind_ret S A B (a : A) (f : A -> M S B) s : bind (ret a) f s = f a s.
Proof. reflexivity. Qed.
Lemma bind_reads S A B (g : S -> outcome A) (f : A -> M S B) s a :
  g s = Ret a -> bind (reads g) f s = f a s.
Proof. unfold bind, reads; intros ->; reflexivity. Qed.
