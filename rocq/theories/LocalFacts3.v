(** LocalFacts3.v -- proofs for PropLocal.v: the calls of a program. *)
From Verif Require Export LocalFacts2.
From Verif Require Import SafeAny MemFacts ClaimFacts CapFacts.
From Coq Require Import ZifyBool ZifyNat ZifyN.
Open Scope N_scope.
Set Implicit Arguments.

Section L3.
  Context {T : Type} (c : cfg) (E : enumlike T).
  Hypothesis Hc : cfg_ok c.
  Hypothesis Hcomp : compiles c E = true.
  Hypothesis Hai : alloc_isize c.
  Local Notation P := (EPB c E).
  Local Notation WF := (WF c E).
  Let HP : 1 <= P := Ppos_any Hc Hcomp Hai.

  Definition stays (B : N -> Prop) (r : nat) (v : ev) (p' : list ev) : Prop := exists v', nth_error p' r = Some v' /\ kept B v v'.
  Lemma stays_same B r v p : nth_error p r = Some v -> stays B r v p.
  Proof. intros H. exists v. split; [exact H|apply kept_refl]. Qed.
  Lemma stays_app B r v p l : nth_error p r = Some v -> stays B r v (p ++ l).
  Proof.
    intros H. exists v. split; [|apply kept_refl]. rewrite nth_error_app1; [exact H|]. apply nth_error_Some. congruence.
  Qed.
  Lemma stays_new B r v p A (o : outcome A) (x : outcome ev) : nth_error p r = Some v -> stays B r v (snd (m_new (T := T) p x)).
  Proof. intros H. unfold m_new. destruct x; cbn; [apply stays_app|apply stays_same..]; exact H. Qed.
  Lemma stays_upd B r r' v v1 v2 p : nth_error p r = Some v -> nth_error p r' = Some v1 -> (r = r' -> kept B v v2) -> stays B r v (upd p r' v2).
  Proof.
    intros H H1 K. destruct (Nat.eq_dec r r') as [->|G].
    - exists v2. split; [|auto]. apply nth_upd_eq. apply nth_error_Some. congruence.
    - exists v. split; [|apply kept_refl]. rewrite nth_upd_neq; auto.
  Qed.
  Lemma stays_on A B r v p r' (m : M ev A) k : nth_error p r = Some v -> (r = r' -> fr B m v) -> stays B r v (snd (m_on (T := T) p r' m k)).
  Proof.
    intros H K. unfold m_on. destruct (nth_error p r') as [v1|] eqn:E1; [|apply stays_same; exact H].
    destruct (m v1) as [o v2] eqn:E2. cbn [snd]. apply (stays_upd _ H E1). intros ->. assert (v1 = v) as -> by congruence.
    specialize (K eq_refl). unfold fr in K. rewrite E2 in K. exact K.
  Qed.
  Lemma stays_read A B r v p r' (f : ev -> outcome A) k : nth_error p r = Some v -> stays B r v (snd (m_read (T := T) p r' f k)).
  Proof. intros H. unfold m_read. destruct (nth_error p r'); apply stays_same; exact H. Qed.
  Lemma reg_len (p : list ev) r v : nth_error p r = Some v -> reg (map len p) 0 r = num v.
  Proof. intros H. unfold reg. apply nth_error_nth. rewrite nth_error_map, H. reflexivity. Qed.

  Theorem steps_stay p o : Forall WF p -> sane c E (map len p) o = true -> forall r v, nth_error p r = Some v ->
    stays (fun j => touches c E (map len p) o r j = false) r v (snd (m_step c E p o)).
  Proof.
    intros Hp Hs r v Hv. assert (Hw : WF v). { rewrite Forall_forall in Hp. apply Hp. eapply nth_error_In. exact Hv. }
    assert (Hr : reg (map len p) 0 r = num v) by (eapply reg_len; exact Hv). set (B := fun j => touches c E (map len p) o r j = false).
    assert (D : forall a b, a <= b -> a / P <= b / P) by (intros; apply N.div_le_mono; lia).
    destruct o; cbn [m_step]; try (apply stays_read; exact Hv); try (apply (stays_new _ _ _ (Ret tt)); exact Hv).
    - destruct (nth_error p r0); [apply (stays_new _ _ _ (Ret tt)); exact Hv|apply stays_same; exact Hv].
    - apply stays_on; [exact Hv|]. intros <-. apply fr_push; auto. unfold B. cbn [touches]. rewrite Nat.eqb_refl, Hr. unfold home. rewrite N.eqb_refl. discriminate.
    - apply stays_on; [exact Hv|]. intros <-. apply fr_storage, storage_pop.
    - apply stays_on; [exact Hv|]. intros <-. apply fr_insert; auto. intros j H1 H2. unfold B. cbn [touches]. rewrite Nat.eqb_refl, Hr. unfold home.
      rewrite (proj2 (N.leb_le _ _) H1), (proj2 (N.leb_le _ _) H2). discriminate.
    - apply stays_on; [exact Hv|]. intros <-. apply fr_remove; auto. intros Hi j H1 H2. unfold B. cbn [touches]. rewrite Nat.eqb_refl, Hr. unfold home.
      rewrite (proj2 (N.leb_le _ _) H1), (proj2 (N.leb_le _ _) H2), (proj2 (N.ltb_lt _ _) Hi). discriminate.
    - apply stays_on; [exact Hv|]. intros <-. apply fr_swap; auto. intros Ha Hb. unfold B. cbn [touches]. rewrite Nat.eqb_refl, Hr. unfold home.
      rewrite (proj2 (N.ltb_lt _ _) Ha), (proj2 (N.ltb_lt _ _) Hb), !N.eqb_refl, orb_true_r. split; discriminate.
    - apply stays_on; [exact Hv|]. intros <-. apply fr_swap_remove; auto. intros Ha. unfold len in Ha. unfold B. cbn [touches]. rewrite Nat.eqb_refl, Hr. unfold home.
      rewrite (proj2 (N.ltb_lt _ _) Ha), !N.eqb_refl, orb_true_r. split; discriminate.
    - apply stays_on; [exact Hv|]. intros <-. apply fr_trunc.
    - apply stays_on; [exact Hv|]. intros <-. apply fr_trunc.
    - apply stays_on; [exact Hv|]. intros <-. cbn [sane] in Hs. apply fr_resize_op; auto; [unfold usz in Hs; lia|]. intros Hn j. unfold B. cbn [touches]. rewrite Nat.eqb_refl, Hr. unfold home.
      rewrite (proj2 (N.ltb_lt _ _) Hn). cbn. lia.
    - apply stays_on; [exact Hv|]. intros <-. unfold set. apply fr_set_raw; auto. intros Ha. unfold len in Ha. unfold B. cbn [touches]. rewrite Nat.eqb_refl, Hr. unfold home.
      rewrite (proj2 (N.ltb_lt _ _) Ha), N.eqb_refl. discriminate.
    - apply stays_on; [exact Hv|]. intros <-. cbn [sane] in Hs. apply fr_reserve; auto. intros j. unfold B. cbn [touches]. rewrite Nat.eqb_refl, Hr. unfold home. cbn. lia.
    - apply stays_on; [exact Hv|]. intros <-. cbn [sane] in Hs. rewrite Hr in Hs. apply fr_shrink; auto. intros j. unfold B. cbn [touches]. rewrite Nat.eqb_refl, Hr. cbn. lia.
    - apply stays_on; [exact Hv|]. intros <-. cbn [sane] in Hs. apply fr_extend; auto. intros j. unfold B. cbn [touches]. rewrite Nat.eqb_refl, Hr. unfold home. cbn. lia.
    - destruct (nth_error p r0) as [a|] eqn:E1; [|apply stays_same; exact Hv]. destruct (nth_error p r2) as [b|] eqn:E2; [|apply stays_same; exact Hv].
      destruct (Nat.eqb_spec r0 r2) as [Q|Q]; [apply stays_same; exact Hv|].
      assert (Wa : WF a) by (rewrite Forall_forall in Hp; apply Hp; eapply nth_error_In; exact E1).
      assert (Wb : WF b) by (rewrite Forall_forall in Hp; apply Hp; eapply nth_error_In; exact E2).
      destruct (append c E (a, b)) as [o s] eqn:E3. cbn [snd].
      destruct (Nat.eq_dec r r2) as [->|G2].
      + exists (snd s). split; [apply nth_upd_eq; rewrite upd_length; apply nth_error_Some; congruence|]. intros j x Hj. unfold B in Hj. cbn [touches] in Hj. rewrite Nat.eqb_refl, orb_true_r in Hj. discriminate.
      + destruct (Nat.eq_dec r r0) as [->|G0].
        * assert (a = v) as -> by congruence. exists (fst s). split; [rewrite nth_upd_neq by auto; apply nth_upd_eq; apply nth_error_Some; congruence|].
          pose proof (@frp_append T c E Hc Hcomp Hai B v b Hw Wb) as F. unfold frp in F. rewrite E3 in F. cbn in F. apply F. intros j. unfold B. cbn [touches]. rewrite Nat.eqb_refl, Hr. unfold home. cbn. lia.
        * exists v. split; [|apply kept_refl]. rewrite !nth_upd_neq by auto. exact Hv.
    - destruct (nth_error p r0) as [a|] eqn:E1; [|apply stays_same; exact Hv]. pose proof (split_storage c E at_ a) as G. destruct (split_off c E at_ a) as [o a']. cbn [snd] in G.
      assert (S : stays B r v (upd p r0 a')).
      { apply (stays_upd _ Hv E1). intros ->. assert (a = v) as -> by congruence. intros j b _ Hb. unfold block_is in *. rewrite G. exact Hb. }
      destruct o; cbn [snd]; try exact S. destruct S as [v' [S1 S2]]. exists v'. split; [|exact S2]. rewrite nth_error_app1; [exact S1|]. apply nth_error_Some. congruence.
    - apply stays_on; [exact Hv|]. intros <-. apply fr_retain; auto. intros a Ha. unfold B. cbn [touches]. rewrite Nat.eqb_refl, Hr. cbn. pose proof (N.mul_div_le a P ltac:(lia)). lia.
    - apply stays_on; [exact Hv|]. intros <-. apply fr_for_each; auto. intros a Ha. unfold B. cbn [touches]. rewrite Nat.eqb_refl, Hr. cbn. pose proof (N.mul_div_le a P ltac:(lia)). lia.
    - destruct (nth_error p r0); [destruct (nth_error p r2)|]; apply stays_same; exact Hv.
  Qed.

  Lemma get_same i v v' b : block_is v (home c E i) b -> block_is v' (home c E i) b -> i < len v -> i < len v' -> get c E i v' = get c E i v.
  Proof.
    unfold block_is, home. intros H1 H2 L1 L2. unfold get, get_raw.
    rewrite (proj2 (N.leb_gt _ _) L1), (proj2 (N.leb_gt _ _) L2). unfold get_raw_unchecked, block_index, load_unchecked. cbn [fst].
    rewrite H1, H2. reflexivity.
  Qed.
  Lemma get_block i v : WF v -> i < len v -> exists b, block_is v (home c E i) b.
  Proof.
    intros Hw Hi. unfold block_is, home, nthN. destruct (nth_error (data (storage v)) (N.to_nat (i / P))) as [b|] eqn:G; [eauto|].
    apply nth_error_None in G. pose proof (wf_cover Hw) as X. unfold vlen, lenN, len in *. assert (i / P < N.of_nat (length (data (storage v)))); [|lia].
    apply N.div_lt_upper_bound; lia.
  Qed.
End L3.
