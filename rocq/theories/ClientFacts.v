(** ClientFacts.v -- plain calls agree with Vec in every state; tame calls are safe in every state. *)
From Verif Require Export ProgFacts SafeAny Client.
From Coq Require Import ZifyBool ZifyNat ZifyN.
Open Scope N_scope.
Set Implicit Arguments.
Unset Strict Implicit.
Set Default Proof Using "Type*".

Definition all_true (l : list bool) : Prop := Forall (fun b => b = true) l.
Lemma upd_true l r b : all_true l -> b = true -> all_true (upd l r b).
Proof.
  unfold all_true. intros H Hb. revert r. induction H as [|x l Hx H IH]; intros [|r]; cbn; try constructor; auto.
Qed.
Lemma reg_true l r : all_true l -> reg l true r = true.
Proof. unfold reg. intros H. revert r. induction H as [|x l Hx H IH]; intros [|r]; cbn; auto. Qed.
Lemma nth_true l r b : all_true l -> nth_error l r = Some b -> b = true.
Proof. intros H Hr. unfold all_true in H. rewrite Forall_forall in H. apply H. eapply nth_error_In. exact Hr. Qed.

Section Count.
  Context {T : Type} {c : cfg} {E : enumlike T}.
  Hypothesis Hc : cfg_ok c.
  Hypothesis Hcomp : compiles c E = true.
  Hypothesis Hroomy : roomy c.
  Lemma roomy_countable m n : n + W c <= usize_max c -> m <= n + 1 -> countableb c E m = true.
  Proof.
    intros H Hm. pose proof (EPB_le_W Hc Hcomp). pose proof (fixable_small Hc Hcomp (n := m) ltac:(lia)) as G. unfold fixable in G.
    unfold countableb. apply N.leb_le. exact G.
  Qed.
  Lemma roomy_summable m n : summableb c E m n = true.
  Proof.
    unfold summableb. destruct (N.ltb_spec (alloc_max c) ((m + (EPB c E - 1)) / EPB c E + (n + (EPB c E - 1)) / EPB c E)) as [|H]; [apply orb_true_r|].
    rewrite orb_false_r. apply N.leb_le. fold (need c E m) in H. fold (need c E n) in H.
    pose proof (need_cover Hc Hcomp (n := m)). pose proof (need_cover Hc Hcomp (n := n)).
    pose proof (EPB_le_W Hc Hcomp). pose proof (usize_pow Hc Hcomp). unfold roomy in Hroomy.
    assert (EPB c E * (need c E m + need c E n) <= W c * alloc_max c) by (apply N.mul_le_mono; lia). lia.
  Qed.
  Lemma roomy_W : 0 + W c <= usize_max c.
  Proof. pose proof (usize_pow Hc Hcomp). unfold roomy in Hroomy. lia. Qed.
  Lemma valid_small v : valid c E v -> len v + W c <= usize_max c.
  Proof. intros H. apply WF_valid in H. exact (roomy_num Hc Hcomp Hroomy H). Qed.
  Lemma pool_small p r : Forall (valid c E) p -> len (reg p (ev_new c) r) + W c <= usize_max c.
  Proof.
    intros H. destruct (nth_error p r) as [v|] eqn:Hv.
    - rewrite (reg_nth _ Hv). apply valid_small. rewrite Forall_forall in H. apply H. eapply nth_error_In. exact Hv.
    - unfold reg. rewrite nth_overflow by (apply nth_error_None; exact Hv). exact roomy_W.
  Qed.
End Count.

Section Plain.
  Context {T : Type} {c : cfg} {E : enumlike T}.
  Hypothesis Hs : setting c E.
  Hypothesis Hroomy : roomy c.
  Local Notation PR := (@PR T c E).
  Local Notation D := (map (to_d E)).

  Lemma cl_step_true sp cl o : divides c E = true -> all_true cl -> all_true (cl_step c E sp cl o).
  Proof.
    intros Hd H. assert (A : forall b, b = true -> all_true (cl ++ [b])) by (intros b Hb; apply Forall_app; split; [exact H|repeat constructor; exact Hb]).
    destruct o; cbn [cl_step]; auto.
    - apply A. rewrite Hd. apply orb_true_r.
    - destruct (ends_in_panic it); auto.
    - destruct (nth_error cl r) as [b|] eqn:Hr; auto. apply A. exact (nth_true H Hr).
    - apply upd_true; assumption.
    - apply upd_true; [exact H|]. rewrite Hd. apply orb_true_r.
    - destruct (_ && _); [|exact H]. apply upd_true; [exact H|]. rewrite !reg_true by exact H. reflexivity.
    - destruct (nth_error sp r); auto. destruct (_ <=? _); auto.
  Qed.
  Definition inv (p : list ev) (sp : list (list T)) : Prop := exists cl, PR p sp cl /\ (divides c E = true -> all_true cl).
  Lemma inv_nil : inv [] [].
  Proof. exists []. split; [exact (PR_nil (s_ok Hs) (s_comp Hs) (s_alloc Hs) (s_d Hs) (s_fd Hs))|]. intros _. constructor. Qed.

  Lemma inv_start p sp : Forall2 (holds c E) p sp -> inv p sp.
  Proof.
    intros H. exists (map (fun _ => divides c E) p). split; [split; [|split]|].
    - clear -H. induction H; cbn; congruence.
    - rewrite map_length. reflexivity.
    - intros r v l b Hv Hl Hb.
      assert (Hh : holds c E v l).
      { clear Hb. revert r Hv Hl. induction H as [|v0 l0 p sp H0 H IH]; intros [|r] Hv Hl; cbn in Hv, Hl; try discriminate; [congruence|]. exact (IH r Hv Hl). }
      assert (Hbd : b = divides c E).
      { revert Hb. clear. revert r. induction p as [|v0 p IH]; intros [|r] Hb; cbn in Hb; try discriminate; [congruence|]. exact (IH r Hb). }
      subst b. apply (holds_RC Hs) in Hh.
      apply (RC_or (s_ok Hs) (s_comp Hs) (s_alloc Hs) (s_d Hs)) in Hh. exact Hh.
    - intros Hd. rewrite Hd. clear. induction p as [|v p IH]; constructor; [reflexivity|exact IH].
  Qed.

  Lemma past_sim p sp cl r i x l : PR p sp cl -> nth_error sp r = Some l -> lenN l < i -> i + EPB c E <= usize_max c ->
    sim (c := c) (E := E) (m_step c E p (OInsert r i x)) (v_step E sp (OInsert r i x)) cl.
  Proof.
    intros H Hl Hi Hu. cbn [m_step v_step]. apply (sim_on_same (s_ok Hs) (s_comp Hs) (s_alloc Hs) (s_d Hs) (s_fd Hs) H).
    intros v l' b _ Hl' _ HR. assert (l' = l) by congruence. subst l'. rewrite (proj2 (N.leb_gt _ _)) by lia. cbn [fst snd].
    eapply okr_mono; [apply (RC_insert_past (s_ok Hs) (s_comp Hs) (s_d Hs) (index := i) x HR); [rewrite lenN_map; exact Hi|lia]|..].
    - intros u v' G. cbv beta in G. rewrite map_app. auto.
    - intros k v' [G|[_ [_ [G _]]]]; [|lia]. destruct (push_fails_roomy (s_ok Hs) (s_comp Hs) (s_d Hs) Hroomy HR G) as [-> _]. left; left; reflexivity.
  Qed.
  Lemma PR_small p sp cl r : PR p sp cl -> lenN (reg sp [] r) + W c <= usize_max c.
  Proof.
    intros [H1 [H2 H3]]. destruct (nth_error sp r) as [l|] eqn:Hl.
    - destruct (nth_error_same_len (eq_sym H1) Hl) as [v Hv]. destruct (nth_error_same_len H2 Hv) as [b Hb].
      rewrite (reg_nth _ Hl). pose proof (RC_small (s_ok Hs) (s_comp Hs) (s_d Hs) Hroomy (H3 _ _ _ _ Hv Hl Hb)) as G. rewrite lenN_map in G. exact G.
    - unfold reg. rewrite nth_overflow by (apply nth_error_None; exact Hl). exact (roomy_W (s_ok Hs) (s_comp Hs) Hroomy).
  Qed.
  Lemma plain_sim p sp o : inv p sp -> plain_op c E o = true ->
    (exists p', m_step c E p o = (MRes (fst (v_step E sp o)), p') /\ inv p' (snd (v_step E sp o))) \/
    fst (m_step c E p o) = MCap \/ fst (m_step c E p o) = MAbort.
  Proof.
    intros [cl [H Hcl]] Hok.
    assert (fin : forall cl', sim (c := c) (E := E) (m_step c E p o) (v_step E sp o) cl' -> (divides c E = true -> all_true cl') ->
      (exists p', m_step c E p o = (MRes (fst (v_step E sp o)), p') /\ inv p' (snd (v_step E sp o))) \/
      fst (m_step c E p o) = MCap \/ fst (m_step c E p o) = MAbort).
    { intros cl' [[G1 G2]|G] Hcl'; [|right; exact G]. left. exists (snd (m_step c E p o)). split; [|exists cl'; split; assumption].
      destruct (m_step c E p o) as [r p']. cbn [fst snd] in *. subst r. reflexivity. }
    pose proof (fun o' => step_sim (s_ok Hs) (s_comp Hs) (s_alloc Hs) (s_d Hs) (s_fd Hs) (o := o') H) as SS.
    assert (gen : v_step E sp o = s_step (to_d E) sp o -> ok_op c E sp cl o = true ->
      (exists p', m_step c E p o = (MRes (fst (v_step E sp o)), p') /\ inv p' (snd (v_step E sp o))) \/
      fst (m_step c E p o) = MCap \/ fst (m_step c E p o) = MAbort).
    { intros Ev Ho. apply (fin (cl_step c E sp cl o)); [rewrite Ev; exact (SS o Ho)|]. intros Hd. apply cl_step_true; auto. }
    destruct o; try (apply gen; [reflexivity|exact Hok]); try (cbn in Hok; discriminate).
    - (* insert *) cbn [plain_op] in Hok. apply andb_prop in Hok. destruct Hok as [Hb Hu]. unfold usz in Hu. apply N.leb_le in Hu.
      destruct (nth_error sp r) as [l|] eqn:Hl.
      + destruct (N.leb_spec i (lenN l)) as [Hi|Hi].
        * apply gen; [|cbn [ok_op]; rewrite Hb, (reg_nth _ Hl), (proj2 (N.leb_le _ _) Hi); cbn; pose proof (PR_small (r := r) H) as Hsm; rewrite (reg_nth _ Hl) in Hsm; apply (roomy_countable (s_ok Hs) (s_comp Hs) Hroomy Hsm); lia].
          cbn [v_step s_step]. unfold s_on. rewrite Hl. rewrite (proj2 (N.leb_le _ _)) by lia. reflexivity.
        * apply (fin cl); [exact (past_sim x H Hl Hi Hu)|exact Hcl].
      + left. exists p. cbn [m_step v_step]. unfold m_on, s_on. rewrite Hl.
        destruct (nth_error p r) as [v|] eqn:Hp; [destruct (nth_error_same_len (proj1 H) Hp) as [l' Hl']; congruence|].
        split; [reflexivity|]. exists cl. split; assumption.
    - (* remove *) cbn [plain_op] in Hok. apply andb_prop in Hok. destruct Hok as [Hb Hd].
      apply gen; [reflexivity|]. cbn [ok_op]. rewrite Hb, (reg_true _ (Hcl Hd)). cbn.
      destruct (N.leb_spec (lenN (reg sp [] r)) i) as [Hi|Hi]; [reflexivity|]. cbn.
      apply (roomy_countable (s_ok Hs) (s_comp Hs) Hroomy (PR_small (r := r) H)). lia.
    - (* shrink_to_fit *) apply gen; [reflexivity|]. cbn [ok_op]. apply (roomy_countable (s_ok Hs) (s_comp Hs) Hroomy (PR_small (r := r) H)). lia.
    - (* append *) apply gen; [reflexivity|]. cbn [plain_op] in Hok. cbn [ok_op]. rewrite Hok.
      rewrite (roomy_summable (s_ok Hs) (s_comp Hs) Hroomy). rewrite (roomy_countable (s_ok Hs) (s_comp Hs) Hroomy (PR_small (r := r2) H)) by lia. apply orb_true_r.
  Qed.
  Lemma client_sim n k : plain_client c E k -> forall seen p sp, inv p sp -> agrees (m_play c E n k seen p) (v_play E n k seen sp).
  Proof.
    intros Hk. induction n as [|n IH]; intros seen p sp H; cbn [m_play v_play]; [constructor|].
    destruct (k seen) as [o|] eqn:Ho; [|constructor].
    destruct (plain_sim H (Hk _ _ Ho)) as [[p' [E1 H']]|[E1|E1]].
    - rewrite E1. destruct (v_step E sp o) as [x sp']. cbn [fst snd] in *. constructor. apply IH. exact H'.
    - destruct (m_step c E p o) as [r p']. cbn in E1. subst r. constructor.
    - destruct (m_step c E p o) as [r p']. cbn in E1. subst r. constructor.
  Qed.
End Plain.

Section Tame.
  Context {T : Type} {c : cfg} {E : enumlike T}.
  Hypothesis Hc : cfg_ok c.
  Hypothesis Hroomy : roomy c.
  Hypothesis Hcomp : compiles c E = true.
  Lemma tame_safe p o : Forall (valid c E) p -> tame_op c E o = true -> safe_op c E p o = true.
  Proof.
    intros Hp. destruct o; cbn; auto; try discriminate.
    - intros _. apply (roomy_countable Hc Hcomp Hroomy (pool_small Hc Hcomp Hroomy (r := r) Hp)). lia.
    - intros ->. rewrite (roomy_summable Hc Hcomp Hroomy), (roomy_countable Hc Hcomp Hroomy (pool_small Hc Hcomp Hroomy (r := r2) Hp)) by lia. apply orb_true_r.
  Qed.
  Lemma client_safe n k : tame_client c E k -> forall seen p, Forall (valid c E) p -> ~ In MUB (m_play c E n k seen p).
  Proof.
    intros Hk. induction n as [|n IH]; intros seen p Hp; cbn [m_play]; [intros []|].
    destruct (k seen) as [o|] eqn:Ho; [|intros []].
    destruct (any_steps Hc Hcomp (roomy_isize Hc Hcomp Hroomy) Hp (tame_safe Hp (Hk _ _ Ho))) as [H1 H2].
    destruct (m_step c E p o) as [[x| | |] p']; cbn [fst snd] in *; cbn [In]; try (intros [X|[]]; congruence).
    intros [X|X]; [discriminate|]. exact (IH _ _ (H2 ltac:(discriminate)) X).
  Qed.
End Tame.
