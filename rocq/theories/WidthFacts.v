(** WidthFacts.v -- lemmas on the element width and on storage efficiency. *)
From Verif Require Export ClaimFacts3 Witness.
From Coq Require Import ZifyBool ZifyNat ZifyN.
Open Scope N_scope.
Set Implicit Arguments.
Unset Strict Implicit.

Section Width.
  Context {T : Type} {c : cfg} {E : enumlike T}.
  Local Notation B := (BITS E).
  Local Notation P := (EPB c E).
  Lemma width_minimal : cfg_ok c -> compiles c E = true -> W c <= 32 \/ nv E <= 2 ^ 32 ->
    2 ^ (B - 1) < nv E /\ nv E <= 2 ^ B /\ 1 <= P /\ P * B <= W c /\ W c < (P + 1) * B.
  Proof.
    intros Hc Hcomp Hw. pose proof (nv_gt1 Hc Hcomp) as Hn.
    assert (Hle : nv E <= 2 ^ 32).
    { destruct Hw as [Hw|Hw]; [|exact Hw]. unfold compiles in Hcomp. apply andb_true_iff in Hcomp. destruct Hcomp as [_ H].
      apply orb_true_iff in H. destruct H as [H|H]; [apply N.leb_le in H; lia|]. apply N.leb_le in H.
      pose proof (N.pow_le_mono_r 2 (W c) 32). lia. }
    assert (HB : B = N.log2_up (nv E)).
    { rewrite BITS_log2 by lia. apply N.min_r. apply N.log2_up_le_pow2; lia. }
    pose proof (BITS_range Hc Hcomp) as [Hb1 [Hb2 Hb3]].
    split; [rewrite HB, N.sub_1_r; apply N.log2_up_spec; lia|].
    split; [rewrite HB; apply N.log2_up_spec; lia|]. split; [apply (EPB_pos Hc Hcomp)|].
    split; [apply (EPB_mul Hc Hcomp)|]. unfold EPB. pose proof (N.mul_succ_div_gt (W c) B ltac:(lia)). lia.
  Qed.
  Lemma width_32 : cfg_ok c -> compiles c E = true -> 2 ^ 32 < nv E -> B = 32 /\ 64 <= W c.
  Proof.
    intros Hc Hcomp Hn. split.
    - rewrite BITS_log2 by lia. apply N.min_l. apply N.lt_le_incl. apply N.log2_up_lt_pow2; lia.
    - unfold compiles in Hcomp. apply andb_true_iff in Hcomp. destruct Hcomp as [_ H]. apply orb_true_iff in H.
      destruct H as [H|H]; [apply N.leb_le in H; exact H|]. apply N.leb_le in H.
      assert (2 ^ 32 < 2 ^ W c) by lia. apply N.pow_lt_mono_r_iff in H0; [|lia].
      pose proof (ok_W Hc) as Hw. cbn in Hw. lia.
  Qed.
  Lemma compiles_iff : compiles c E = true <-> 2 <= nv E /\ (W c < 64 -> nv E <= 2 ^ W c).
  Proof.
    unfold compiles. rewrite andb_true_iff, orb_true_iff, N.ltb_lt, !N.leb_le. split.
    - intros [H1 H2]. split; [lia|]. intros H. lia.
    - intros [H1 H2]. split; [lia|]. destruct (N.le_gt_cases 64 (W c)); auto.
  Qed.
  Lemma dense u : cfg_ok c -> compiles c E = true -> In u [8; 16; 32] -> B <= u -> u <= W c -> W c <= u * P.
  Proof.
    intros Hc Hcomp Hu HB HW. pose proof (BITS_range Hc Hcomp) as [Hb1 [Hb2 Hb3]].
    assert (Hdiv : W c = u * (W c / u)).
    { pose proof (ok_W Hc) as Hw. cbn in Hu, Hw.
      destruct Hu as [<-|[<-|[<-|[]]]]; destruct Hw as [Hw|[Hw|[Hw|[Hw|[Hw|[]]]]]]; rewrite <- Hw in *; try reflexivity; lia. }
    set (q := W c / u) in *. assert (q <= P). { unfold EPB. apply N.div_le_lower_bound; [lia|]. rewrite Hdiv at 1. apply N.mul_le_mono_r. exact HB. }
    rewrite Hdiv. apply N.mul_le_mono_l. assumption.
  Qed.
  Lemma dense_blocks u n : cfg_ok c -> compiles c E = true -> In u [8; 16; 32] -> B <= u -> u <= W c -> 1 <= n ->
    W c * ((n + (P - 1)) / P) + u <= u * n + W c.
  Proof.
    intros Hc Hcomp Hu HB HW Hn. pose proof (dense Hc Hcomp Hu HB HW) as Hd. pose proof (EPB_pos Hc Hcomp) as HP.
    replace (n + (P - 1)) with (n - 1 + 1 * P) by lia. rewrite N.div_add by lia.
    pose proof (N.mul_div_le (n - 1) P ltac:(lia)). set (q := (n - 1) / P) in *.
    assert (W c * q <= u * (n - 1)). { apply N.le_trans with (u * P * q); [nia|]. nia. }
    nia.
  Qed.
End Width.
