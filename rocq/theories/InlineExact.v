(** InlineExact.v -- proofs for C51_exact: exactly which calls keep a SmallEnumVec inline. *)
From Verif Require Import MemFacts3 CapFacts PropProg.
From Verif Require Export InlineFacts.
From Coq Require Import ZifyBool ZifyNat ZifyN.
Open Scope N_scope.
Set Implicit Arguments.

Section Fed.
  Context {T : Type} (c : cfg) (E : enumlike T).
  Hypothesis Hc : cfg_ok c.
  Hypothesis Ha : admits c E.
  Hypothesis Hk : keeps_inline c.
  Local Notation P := (EPB c E).
  Local Notation room := (fun cap => cap = 4).
  Local Notation Q := (capok room).
  Local Notation I := (small_st 4).
  Let Hg := inline_serves Hc Hk.
  Let Hr := inline_roomy Hc Ha Hk.
  Let HP := P_le_W Hc Ha.

  Lemma fits_extend2 it v : len v + lower it < P * 4 -> len v + N.max (lower it) (lenN (items it)) <= P * 4 -> fits Q I (extend c E it) v.
  Proof.
    intros H0 H. unfold extend. apply fits_bind; [apply fits_reads; exact Logic.I|]. intros sl v1 E1. injection E1 as <- <-.
    apply fits_bind; [apply (fits_reserve Hc Hr Ha Hg); exact H0|]. intros [] v1 E1. apply reserve_num in E1.
    apply fits_bind; [apply fits_reads, fed_uadd|]. intros n1 v2 E2. unfold reads in E2. injection E2 as E2 <-.
    apply fits_bind; [apply tame_set_len|]. intros [] v3 E3. injection E3 as <-.
    apply fits_bind; [apply (@tame_known T c E 4 room)|]. intros r v4 E4. apply (fits_rest Hc Hr Ha Hg).
    pose proof (known_num c E (N.to_nat (lower it)) 0 (len v) (ends_in_panic it) (items it) (mkEv (storage v1) n1)) as Hn. rewrite E4 in Hn. cbn in Hn.
    apply known_rest in E4. subst r. apply (uadd_le Hr) in E2. unfold len in *. rewrite Hn. unfold lenN in *. rewrite skipn_length. lia.
  Qed.
  Lemma step_inline p o : Forall (fun v => Q v /\ I v) p -> fits_exact E (map len p) o = true -> stays 4 room (m_step c E p o).
  Proof.
    intros Hp H. pose proof (inline_max_P E Hc Hk) as HM.
    destruct o as [|k|x k|l0|it|r|r x|r|r i x|r i|r a b0|r i|r k|r|r k x|r i|r i x|r k|r|r it|r r2|r at_|r f|r f|r x|r x|r r2|r|r|r calls|r|r];
      try (apply (step_fed Hc Hr Ha Hg Hp), (fits_demand Hc Ha Hk); exact H); cbn [fits_exact] in H; apply andb_true_iff in H; destruct H as [H1 H2];
      rewrite N.ltb_lt in H1; rewrite N.leb_le in H2; rewrite HM in *; cbn [m_step].
    - apply (stays_new Hp). apply (makes_build Hc Hr Ha Hg). apply fits_extend2; cbn; lia.
    - apply stays_on; [exact Hp|]. intros v Ev. pose proof (lens_reg Ev) as L. rewrite <- L in H1, H2. apply fits_extend2; lia.
  Qed.
End Fed.

Section Spill.
  Context {T : Type} (c : cfg) (E : enumlike T).
  Hypothesis Hs : setting c E.
  Hypothesis Hk : keeps_inline c.
  Let Hc := s_ok Hs. Let Ha := proj1 (proj2 (proj2 Hs)). Let Hcomp := s_comp Hs. Let Hai := s_alloc Hs. Let Hd := s_d Hs. Let Hfd := s_fd Hs.
  Local Notation P := (EPB c E).
  Let HP := P_le_W Hc Ha.
  Let Hr := inline_roomy Hc Ha Hk.

  (** memory ran out *)
  Definition oom {A} (o : outcome A) : Prop := o = Panic PCapacity \/ o = Abort.
  Lemma resize_big' n x v o v' : 4 < n -> vlen (storage v) <= vcap (storage v) -> on_storage (vec_resize c n x) v = (o, v') ->
    (o = Ret tt /\ 4 < vcap (storage v')) \/ oom o.
  Proof.
    intros Hn Hv G. unfold oom. destruct o as [[]|k| |].
    - left. split; [reflexivity|]. exact (@resize_big c Hc n x v tt v' Hn Hv G).
    - right. revert G. unfold on_storage, vec_resize, vec_ensure. destruct (_ <=? _); [discriminate|]. destruct (_ <=? _); [discriminate|]. cbn.
      destruct (_ <? _); [intros [= <- _]; auto|]. destruct (_ <? _); discriminate.
    - auto.
    - revert G. unfold on_storage, vec_resize, vec_ensure. destruct (_ <=? _); [discriminate|]. destruct (_ <=? _); [discriminate|]. cbn.
      destruct (_ <? _); [discriminate|]. destruct (_ <? _); discriminate.
  Qed.
  Lemma reserve_big' k v o v' : vlen (storage v) <= vcap (storage v) -> 4 * P <= len v + k -> len v + k <= usize_max c -> (len v + k) / P + 1 <= usize_max c ->
    reserve c E k v = (o, v') -> (o = Ret tt /\ 4 < vcap (storage v')) \/ oom o.
  Proof.
    intros Hv H Hu Hu2. unfold reserve, bind, reads, lift. rewrite (proj2 (N.leb_le _ _)) by lia.
    assert (4 <= (len v + k) / P) by (apply N.div_le_lower_bound; lia).
    rewrite uadd_exact by lia. intros G. refine (@resize_big' _ 0 v o v' _ Hv G). lia.
  Qed.
  Lemma extend_big' it v o v' : vlen (storage v) <= vcap (storage v) -> len v + lower it = 4 * P -> extend c E it v = (o, v') -> 4 < vcap (storage v') \/ oom o.
  Proof.
    intros Hv H. unfold extend, bind at 1, reads at 1. unfold bind at 1.
    destruct (reserve c E (lower it) v) as [o1 v1] eqn:E1.
    assert (Hdiv : 4 * P / P = 4) by (apply N.div_mul; lia).
    assert (A1 : 4 * P <= len v + lower it) by lia. assert (A2 : len v + lower it <= usize_max c) by lia.
    assert (A3 : (len v + lower it) / P + 1 <= usize_max c) by (rewrite H, Hdiv; lia).
    destruct (reserve_big' _ _ Hv A1 A2 A3 E1) as [[-> G1]|G1].
    - intros G. left. enough (vcap (storage v1) <= vcap (storage v')) by lia.
      match type of G with ?m v1 = _ => pose proof (@le_keeps _ m v1) as K; rewrite G in K end. apply K.
      repeat (apply (keeps_bind (@Rv_trans N.le N.le_trans)); [|intros]).
      + apply keeps_reads. exact (@Rv_refl N.le N.le_refl).
      + apply k_set_len. exact N.le_refl.
      + apply k_known; [exact N.le_refl|exact N.le_trans].
      + apply k_rest; [exact N.le_refl|exact N.le_trans|]. intros cap need X. pose proof (ok_grow Hc X). lia.
    - destruct o1 as [[]|k| |]; unfold oom in *.
      + destruct G1; discriminate.
      + intros [= <- _]. destruct G1 as [[= ->]|]; [auto|discriminate].
      + intros [= <- _]. auto.
      + destruct G1; discriminate.
  Qed.
  (** the contents of inline vectors fit *)
  Lemma inline_short v b l : RC c E b v (map (to_d E) l) -> inline v -> lenN l <= 4 * P.
  Proof.
    intros [Hw Hn _ _] Hi. rewrite lenN_map in Hn. rewrite <- Hn. unfold inline in Hi. apply WF_valid in Hw. destruct Hw as (_ & H1 & H2 & _). unfold len in H1. rewrite Hi in H2.
    etransitivity; [exact H1|]. rewrite N.mul_comm. apply N.mul_le_mono_r. exact H2.
  Qed.
  Lemma all_short p sp cl : @PR T c E p sp cl -> Forall inline p -> Forall (fun l => lenN l <= 4 * P) sp.
  Proof.
    intros [H1 [H2 H3]] Hi. apply Forall_forall. intros l Hl. apply In_nth_error in Hl. destruct Hl as [r Hl].
    destruct (nth_error_same_len (eq_sym H1) Hl) as [v Hv]. destruct (nth_error_same_len H2 Hv) as [b Hb].
    rewrite Forall_forall in Hi. exact (@inline_short v b l (H3 _ _ _ _ Hv Hl Hb) (Hi _ (nth_error_In _ _ Hv))).
  Qed.
  Lemma PR_caps p sp cl r v : @PR T c E p sp cl -> nth_error p r = Some v -> vlen (storage v) <= vcap (storage v).
  Proof.
    intros [H1 [H2 H3]] Hv. destruct (nth_error_same_len H1 Hv) as [l Hl]. destruct (nth_error_same_len H2 Hv) as [b Hb].
    pose proof (rc_wf (H3 _ _ _ _ Hv Hl Hb)) as Hw. apply WF_valid in Hw. apply Hw.
  Qed.
  Lemma in_upd A (p : list A) r x y : nth_error p r = Some y -> In x (upd p r x).
  Proof. revert r. induction p as [|z p IH]; intros [|r] H; cbn in *; try discriminate; [auto|right; exact (IH _ H)]. Qed.
  Lemma reg_at A (p : list A) (f : A -> N) r y : nth_error p r = Some y -> reg (map f p) 0 r = f y.
  Proof. intros H. unfold reg. apply nth_error_nth, map_nth_error. exact H. Qed.
  Lemma oom_out A (k : A -> res T) o r : oom o -> of_outcome k o = MRes r -> False.
  Proof. intros [-> | ->]; discriminate. Qed.
  Lemma append_big v w o s : vlen (storage v) <= vcap (storage v) -> len v + len w = 4 * P -> len v mod P <> 0 -> append c E (v, w) = (o, s) ->
    4 < vcap (storage (fst s)) \/ oom o.
  Proof.
    intros Hv H Hm. unfold append, bind at 1, reads at 1. unfold bind at 1, reads at 1. cbn [fst snd]. rewrite (proj2 (N.eqb_neq _ _) Hm).
    unfold bind at 1. unfold on_fst at 1. cbn [fst snd]. destruct (reserve c E (len w) v) as [o1 v1] eqn:E1.
    assert (Hdiv : 4 * P / P = 4) by (apply N.div_mul; lia).
    assert (A1 : 4 * P <= len v + len w) by lia. assert (A2 : len v + len w <= usize_max c) by lia.
    assert (A3 : (len v + len w) / P + 1 <= usize_max c) by (rewrite H, Hdiv; lia).
    destruct (reserve_big' _ _ Hv A1 A2 A3 E1) as [[-> G1]|G1].
    - intros G. left. enough (K : R2 N.le (v1, w) s) by (destruct K as [K _]; unfold Rv in K; cbn in K; lia).
      match type of G with ?m (v1, w) = _ => assert (K : keeps (R2 N.le) m); [|specialize (K (v1, w)); rewrite G in K; exact K] end.
      pose proof (R2_refl N.le N.le_refl) as RR. pose proof (@R2_trans N.le N.le_trans) as RT.
      repeat (apply (keeps_bind RT); [|intros]).
      + apply keeps_lift, RR.
      + apply k_fst; [apply k_set_len, N.le_refl].
      + apply (keeps_for RR RT). intros j. apply (keeps_bind RT); [apply keeps_lift, RR|intros]. apply (keeps_bind RT); [apply keeps_reads, RR|intros].
        apply k_fst, k_set_u; [exact N.le_refl|exact N.le_trans].
      + apply k_snd; [exact N.le_refl|]. apply k_truncate. reflexivity.
    - destruct o1 as [[]|k| |]; unfold oom in *.
      + destruct G1; discriminate.
      + intros [= <- _]. destruct G1 as [[= ->]|]; [auto|discriminate].
      + intros [= <- _]. auto.
      + destruct G1; discriminate.
  Qed.
  Lemma step_spills p sp cl o r p' : @PR T c E p sp cl -> ok_op c E sp cl o = true -> Forall inline p -> fits_exact E (map lenN sp) o = false ->
    (forall it, o = OFromIter it -> ends_in_panic it = false) -> m_step c E p o = (MRes r, p') -> r <> RNoReg -> ~ Forall inline p'.
  Proof.
    intros H Hok Hi Hf Hpan Hm Hr0 Hi'. pose proof (inline_max_P E Hc Hk) as HM.
    destruct (step_sim Hc Hcomp Hai Hd Hfd H Hok) as [[G1 G2]|[G|G]]; rewrite Hm in *; cbn [fst snd] in *; try discriminate.
    injection G1 as G1. subst r. pose proof (all_short H Hi) as S0. pose proof (all_short G2 Hi') as S1. rewrite Forall_forall in S0, S1, Hi'.
    assert (S0r : forall r l, nth_error sp r = Some l -> lenN l <= 4 * P) by (intros r l G; exact (S0 _ (nth_error_In _ _ G))).
    assert (Hget : forall r l, nth_error sp r = Some l -> exists v, nth_error p r = Some v /\ len v = lenN l /\ vlen (storage v) <= vcap (storage v)).
    { intros r l G. pose proof H as [K1 [K2 K3]]. destruct (nth_error_same_len (eq_sym K1) G) as [v Hv]. exists v. split; [exact Hv|]. split; [|exact (PR_caps r H Hv)].
      destruct (nth_error_same_len K2 Hv) as [b Hb]. pose proof (rc_num (K3 _ _ _ _ Hv G Hb)) as Q. rewrite lenN_map in Q. exact Q. }
    assert (Hlast : forall v, p' = p ++ [v] -> 4 < vcap (storage v) -> False).
    { intros v -> Hv. specialize (Hi' v ltac:(apply in_or_app; right; left; reflexivity)). unfold inline in Hi'. lia. }
    destruct o as [|k|x k|l0|it|r|r x|r|r i x|r i|r a b0|r i|r k|r|r k x|r i|r i x|r k|r|r it|r r2|r at_|r f|r f|r x|r x|r r2|r|r|r calls|r|r];
      cbn [fits_exact fits_inline] in Hf; try discriminate; rewrite ?HM in Hf.
    - (* with_capacity *)
      apply N.leb_gt in Hf. cbn [m_step] in Hm. destruct (with_capacity c E k) as [v|q| |] eqn:E1; cbn in Hm; try discriminate; [|destruct q; discriminate].
      injection Hm as <-. apply (Hlast v eq_refl). revert E1. unfold with_capacity, vec_with_capacity, vec_ensure.
      assert (Hb : 4 < blocks_for_elements c E k).
      { unfold blocks_for_elements. apply N.le_succ_l. change (N.succ 4) with (4 + 1). apply N.div_le_lower_bound; lia. }
      assert (H0 : vcap (vec_new c) = 4) by (unfold vec_new; rewrite (proj1 Hk); reflexivity). rewrite H0.
      rewrite (proj2 (N.leb_gt _ _)) by exact Hb. pose proof (ok_grow Hc (cap := 4) (need := blocks_for_elements c E k) ltac:(exact Hb)).
      cbn. destruct (_ <? _); [discriminate|]. destruct (_ <? _); [discriminate|]. intros [= <-]. cbn. lia.
    - (* from_elem *)
      apply N.ltb_ge in Hf. destruct (N.eq_dec k (4 * P)) as [->|Hn].
      + cbn [m_step] in Hm. destruct (from_elem c E x (4 * P)) as [v|q| |] eqn:E1; cbn in Hm; try discriminate; [|destruct q; discriminate].
        injection Hm as <-. apply (Hlast v eq_refl). apply build_ret in E1. destruct E1 as [[] E1]. unfold extend_with_value in E1. rewrite N.leb_refl in E1.
        destruct (extend_big' (exact_iter (repeat x (N.to_nat (4 * P)))) _ (new_cap c) (repeat_len x _) E1) as [G|[G|G]]; [exact G|discriminate|discriminate].
      + cbn [s_step snd] in S1. specialize (S1 _ ltac:(apply in_or_app; right; left; reflexivity)). rewrite repeat_len in S1. lia.
    - (* from_slice *)
      apply N.ltb_ge in Hf. specialize (S1 l0 ltac:(cbn; apply in_or_app; right; left; reflexivity)).
      cbn [m_step] in Hm. destruct (from_slice c E l0) as [v|q| |] eqn:E1; cbn in Hm; try discriminate; [|destruct q; discriminate].
      injection Hm as <-. apply (Hlast v eq_refl). apply build_ret in E1. destruct E1 as [[] E1].
      assert (L : len (ev_new c) + lower (exact_iter l0) = 4 * P) by (change (lenN l0 = 4 * P); lia).
      destruct (extend_big' (exact_iter l0) _ (new_cap c) L E1) as [G|[G|G]]; [exact G|discriminate|discriminate].
    - (* from_iter *)
      specialize (Hpan it eq_refl). cbn [s_step snd] in S1. rewrite Hpan in S1. specialize (S1 (items it) ltac:(cbn; apply in_or_app; right; left; reflexivity)).
      cbn [ok_op] in Hok. apply andb_true_iff in Hok. destruct Hok as [_ Hok]. apply N.leb_le in Hok.
      apply andb_false_iff in Hf. rewrite N.ltb_ge, N.leb_gt in Hf.
      cbn [m_step] in Hm. destruct (from_iter c E it) as [v|q| |] eqn:E1; cbn in Hm; try discriminate.
      2:{ rewrite Hpan in Hm. cbn in Hm. destruct q; discriminate. }
      injection Hm as _ <-. apply (Hlast v eq_refl). apply build_ret in E1. destruct E1 as [[] E1].
      assert (L : len (ev_new c) + lower it = 4 * P) by (change (lower it = 4 * P); lia).
      destruct (extend_big' it _ (new_cap c) L E1) as [G|[G|G]]; [exact G|discriminate|discriminate].
    - (* push *)
      apply N.ltb_ge in Hf. cbn [s_step] in *. unfold s_on in *. destruct (nth_error sp r) as [l|] eqn:El; [|contradiction Hr0; reflexivity].
      cbn [snd] in S1. specialize (S1 _ (in_upd _ _ _ El)). rewrite (reg_at _ _ _ El) in Hf. rewrite lenN_app in S1. change (lenN [x]) with 1 in S1. lia.
    - (* insert *)
      apply N.ltb_ge in Hf. cbn [s_step] in *. unfold s_on in *. destruct (nth_error sp r) as [l|] eqn:El; [|contradiction Hr0; reflexivity].
      cbn [ok_op] in Hok. unfold reg in Hok. rewrite (nth_error_nth _ _ _ El) in Hok. apply andb_true_iff in Hok. destruct Hok as [Hok _]. apply andb_true_iff in Hok. destruct Hok as [_ Hok].
      rewrite Hok in S1. cbn [snd] in S1. specialize (S1 _ (in_upd _ _ _ El)). rewrite (reg_at _ _ _ El) in Hf. apply N.leb_le in Hok.
      unfold l_insert, lenN in S1, Hok, Hf. rewrite !app_length, firstn_length, skipn_length in S1. change (length [x]) with 1%nat in S1. lia.
    - (* resize *)
      apply orb_false_iff in Hf. rewrite N.leb_gt, N.ltb_ge in Hf. cbn [s_step] in *. unfold s_on in *. destruct (nth_error sp r) as [l|] eqn:El; [|contradiction Hr0; reflexivity].
      rewrite (reg_at _ _ _ El) in Hf. cbn [snd] in S1. specialize (S1 _ (in_upd _ _ _ El)). unfold l_resize in S1. rewrite (proj2 (N.ltb_lt _ _)) in S1 by tauto.
      rewrite lenN_app, repeat_len in S1. assert (k = 4 * P) by lia. subst k. clear S1.
      destruct (Hget _ _ El) as (v & Ev & Lv & Vv). cbn [m_step] in Hm. unfold m_on in Hm. rewrite Ev in Hm.
      unfold resize, bind, reads, lift in Hm. rewrite Lv in Hm. rewrite (proj2 (N.ltb_lt _ _)) in Hm by tauto. rewrite usub_exact in Hm by lia. unfold extend_with_value in Hm.
      rewrite (proj2 (N.leb_le _ _)) in Hm by lia. match type of Hm with context [extend c E ?it v] => destruct (extend c E it v) as [o v'] eqn:E1 end.
      injection Hm as Hm1 Hm2. subst p'. assert (L : len v + lower (exact_iter (repeat x (N.to_nat (4 * P - lenN l)))) = 4 * P).
      { change (len v + lenN (repeat x (N.to_nat (4 * P - lenN l))) = 4 * P). rewrite repeat_len. lia. }
      destruct (extend_big' _ _ Vv L E1) as [G|G]; [|exact (oom_out _ G Hm1)]. specialize (Hi' _ (in_upd _ _ _ Ev)). unfold inline in Hi'. lia.
    - (* reserve *)
      apply N.ltb_ge in Hf. cbn [s_step] in *. unfold s_on in *. destruct (nth_error sp r) as [l|] eqn:El; [|contradiction Hr0; reflexivity].
      rewrite (reg_at _ _ _ El) in Hf. destruct (Hget _ _ El) as (v & Ev & Lv & Vv). cbn [m_step] in Hm. unfold m_on in Hm. rewrite Ev in Hm.
      destruct (reserve c E k v) as [o v'] eqn:E1. injection Hm as Hm1 Hm2. subst p'.
      cbn [ok_op] in Hok. unfold amount in Hok. rewrite andb_true_iff, orb_true_iff in Hok. unfold usz in Hok. rewrite !N.leb_le in Hok.
      pose proof (S0r _ _ El) as Sl. assert (A1 : 4 * P <= len v + k) by lia.
      destruct (N.le_gt_cases (len v + k) (usize_max c)) as [A2|A2].
      2:{ revert E1. unfold reserve, bind, reads, lift. rewrite (proj2 (N.leb_gt _ _)) by exact A2. intros [= <- <-]. discriminate. }
      assert (A3 : (len v + k) / P + 1 <= usize_max c).
      { destruct Hok as [_ [HP2|Hk2]].
        - assert ((len v + k) / P <= usize_max c / P) by (apply N.div_le_mono; lia). assert (usize_max c / P <= usize_max c / 2) by (apply N.div_le_compat_l; lia).
          pose proof (N.mul_div_le (usize_max c) 2 ltac:(lia)). lia.
        - assert ((len v + k) / P <= len v + k) by (apply N.div_le_upper_bound; [lia|]; rewrite <- (N.mul_1_l (len v + k)) at 1; apply N.mul_le_mono_r; lia).
          assert (isize_max c + 4 * P + 1 <= usize_max c); [|lia]. pose proof (proj2 HP) as HP3. rewrite (proj1 (ok_small Hc (proj1 Hk))) in HP3.
          revert HP3. clear - Hc. generalize P. intros q HP3. unfold isize_max, usize_max. destruct (ok_usize Hc) as [-> | ->].
          + change (2 ^ (32 - 1) - 1) with 2147483647. change (2 ^ 32 - 1) with 4294967295. lia.
          + change (2 ^ (64 - 1) - 1) with 9223372036854775807. change (2 ^ 64 - 1) with 18446744073709551615. lia. }
      destruct (reserve_big' _ _ Vv A1 A2 A3 E1) as [[_ G]|G]; [|exact (oom_out _ G Hm1)]. specialize (Hi' _ (in_upd _ _ _ Ev)). unfold inline in Hi'. lia.
    - (* extend *)
      cbn [ok_op] in Hok. apply andb_true_iff in Hok. destruct Hok as [_ Hok]. apply N.leb_le in Hok.
      apply andb_false_iff in Hf. rewrite N.ltb_ge, N.leb_gt in Hf.
      cbn [s_step] in *. unfold s_on in *. destruct (nth_error sp r) as [l|] eqn:El; [|contradiction Hr0; reflexivity].
      rewrite (reg_at _ _ _ El) in Hf. cbn [snd] in S1. specialize (S1 _ (in_upd _ _ _ El)). rewrite lenN_app in S1.
      destruct (Hget _ _ El) as (v & Ev & Lv & Vv). cbn [m_step] in Hm. unfold m_on in Hm. rewrite Ev in Hm.
      destruct (extend c E it v) as [o v'] eqn:E1. injection Hm as Hm1 Hm2. subst p'. assert (L : len v + lower it = 4 * P) by lia.
      destruct (extend_big' _ _ Vv L E1) as [G|G]; [|exact (oom_out _ G Hm1)]. specialize (Hi' _ (in_upd _ _ _ Ev)). unfold inline in Hi'. lia.
    - (* append *)
      cbn [s_step] in *. destruct (nth_error sp r) as [l|] eqn:El; [|contradiction Hr0; reflexivity]. destruct (nth_error sp r2) as [l2|] eqn:El2; [|contradiction Hr0; reflexivity].
      rewrite (reg_at _ _ _ El), (reg_at _ _ _ El2), (div_P _ Hc Hk) in Hf. destruct (Nat.eqb_spec r r2) as [Er|Er]; [contradiction Hr0; reflexivity|].
      cbn [snd] in S1. assert (L1 : In (l ++ l2) (upd (upd sp r (l ++ l2)) r2 [])).
      { apply nth_error_In with (n := r). rewrite nth_upd_neq by congruence. apply nth_upd_eq. apply nth_error_Some. congruence. }
      specialize (S1 _ L1). rewrite lenN_app in S1. destruct (N.eqb_spec (lenN l mod P) 0) as [Hm0|Hm0]; [apply N.leb_gt in Hf; lia|]. apply N.ltb_ge in Hf.
      destruct (Hget _ _ El) as (v & Ev & Lv & Vv). destruct (Hget _ _ El2) as (w & Ew & Lw & Vw). cbn [m_step] in Hm. rewrite Ev, Ew in Hm.
      destruct (Nat.eqb_spec r r2); [contradiction|]. destruct (append c E (v, w)) as [o [v' w']] eqn:E1. cbn in Hm. injection Hm as Hm1 Hm2. subst p'.
      destruct (@append_big v w o (v', w') Vv ltac:(lia) ltac:(congruence) E1) as [G|G]; [|exact (oom_out _ G Hm1)].
      assert (L2 : In v' (upd (upd p r v') r2 w')).
      { apply nth_error_In with (n := r). rewrite nth_upd_neq by congruence. apply nth_upd_eq. apply nth_error_Some. congruence. }
      specialize (Hi' _ L2). unfold inline in Hi'. cbn in G. lia.
    - (* split_off *)
      apply N.leb_gt in Hf. destruct (nth_error sp r) as [l|] eqn:El; [rewrite (reg_at _ _ _ El) in Hf; pose proof (S0r _ _ El); lia|].
      unfold reg in Hf. rewrite nth_overflow in Hf; [lia|]. rewrite map_length. apply nth_error_None. exact El.
  Qed.
  Lemma run_inline prog : forall p sp cl, @PR T c E p sp cl -> ok_run c E sp cl prog = true -> Forall inline p -> all_exact E sp prog = true ->
    fst (m_run c E p prog) = map (@MRes T) (fst (s_run (to_d E) sp prog)) /\ (forall k, Forall inline (snd (m_run c E p (firstn k prog)))).
  Proof.
    induction prog as [|o prog IH]; intros p sp cl H Hok Hi Hf; cbn [m_run s_run ok_run all_exact] in *.
    - split; [reflexivity|]. intros [|k]; exact Hi.
    - apply andb_true_iff in Hok, Hf. destruct Hok as [Hok1 Hok2], Hf as [Hf1 Hf2]. rewrite <- (PR_lens Hs Hr H) in Hf1.
      assert (Hp : Forall (fun v => capok (fun cap => cap = 4) v /\ small_st 4 v) p).
      { apply Forall_forall. intros v Hv. rewrite Forall_forall in Hi. specialize (Hi v Hv). split; [exact Hi|]. apply In_nth_error in Hv. destruct Hv as [r Hv].
        pose proof (PR_caps r H Hv) as G. unfold inline in Hi. unfold small_st. rewrite Hi in G. exact G. }
      destruct (step_inline Hc Ha Hk o Hp Hf1) as [F1 F2]. pose proof (step_sim Hc Hcomp Hai Hd Hfd H Hok1) as Hst.
      assert (F : forall k, Forall inline (snd (m_run c E p (firstn (S k) (o :: prog)))) <-> match fst (m_step c E p o) with MAbort | MUB => Forall inline (snd (m_step c E p o)) | _ => Forall inline (snd (m_run c E (snd (m_step c E p o)) (firstn k prog))) end).
      { intros k. cbn [firstn m_run]. destruct (m_step c E p o) as [r p']. cbn [fst snd]. destruct r; cbn [fst snd]; try reflexivity; destruct (m_run c E p' (firstn k prog)); reflexivity. }
      destruct (m_step c E p o) as [r p']. destruct (s_step (to_d E) sp o) as [x sp']. cbn [snd fst] in *.
      destruct Hst as [[G1 G2]|[G|G]]; cbn [fst snd] in *; subst r; try contradiction.
      assert (Hi' : Forall inline p') by (eapply Forall_impl; [|exact F2]; intros v [G _]; exact G).
      destruct (IH _ _ _ G2 Hok2 Hi' Hf2) as [I1 I2]. split.
      + destruct (m_run c E p' prog) as [rs p'']. destruct (s_run (to_d E) sp' prog) as [xs sp'']. cbn in *. congruence.
      + intros [|k]; [exact Hi|]. rewrite F. apply I2.
  Qed.
  Lemma run_spills prog : forall p sp cl, @PR T c E p sp cl -> ok_run c E sp cl prog = true -> Forall inline p ->
    ~ In RNoReg (fst (s_run (to_d E) sp prog)) -> (forall it, In (OFromIter it) prog -> ends_in_panic it = false) ->
    (forall k, Forall inline (snd (m_run c E p (firstn k prog)))) -> ~ In MCap (fst (m_run c E p prog)) -> ~ In MAbort (fst (m_run c E p prog)) ->
    all_exact E sp prog = true.
  Proof.
    induction prog as [|o prog IH]; intros p sp cl H Hok Hi Hreg Hpan HF HC HA; [reflexivity|]. cbn [m_run s_run ok_run all_exact] in *.
    apply andb_true_iff in Hok. destruct Hok as [Hok1 Hok2]. pose proof (step_sim Hc Hcomp Hai Hd Hfd H Hok1) as Hst.
    assert (F : forall k, Forall inline (snd (m_run c E p (firstn (S k) (o :: prog)))) <-> match fst (m_step c E p o) with MAbort | MUB => Forall inline (snd (m_step c E p o)) | _ => Forall inline (snd (m_run c E (snd (m_step c E p o)) (firstn k prog))) end).
    { intros k. cbn [firstn m_run]. destruct (m_step c E p o) as [r p']. cbn [fst snd]. destruct r; cbn [fst snd]; try reflexivity; destruct (m_run c E p' (firstn k prog)); reflexivity. }
    pose proof (fun r p' => @step_spills p sp cl o r p' H Hok1 Hi) as SP.
    destruct (m_step c E p o) as [r p'] eqn:Em. destruct (s_step (to_d E) sp o) as [x sp'] eqn:Es. cbn [snd fst] in *.
    destruct Hst as [[G1 G2]|[G|G]]; cbn [fst snd] in *; subst r.
    2:{ contradiction HC. destruct (m_run c E p' prog). left. reflexivity. }
    2:{ contradiction HA. left. reflexivity. }
    assert (HF' : forall k, Forall inline (snd (m_run c E p' (firstn k prog)))) by (intros k; apply F, HF).
    assert (Hi' : Forall inline p') by exact (HF' 0%nat).
    destruct (m_run c E p' prog) as [rs p''] eqn:Em2. destruct (s_run (to_d E) sp' prog) as [xs sp''] eqn:Es2. cbn [fst snd In] in *.
    apply andb_true_iff. split.
    - destruct (fits_exact E (map lenN sp) o) eqn:Hf; [reflexivity|]. exfalso. refine (SP x p' eq_refl _ eq_refl _ Hi'); [intros it ->; apply Hpan; left; reflexivity|].
      intros ->. apply Hreg. left. reflexivity.
    - apply (IH _ _ _ G2 Hok2 Hi'); [rewrite Es2; cbn; tauto|intros it Hit; apply Hpan; right; exact Hit|exact HF'|rewrite Em2; cbn; tauto|rewrite Em2; cbn; tauto].
  Qed.
End Spill.
