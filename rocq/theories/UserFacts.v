(** UserFacts.v -- calls that run arbitrary user code keep vectors valid and are never undefined. *)
From Verif Require Export User ClientFacts.
From Coq Require Import ZifyBool ZifyNat ZifyN.
Open Scope N_scope.
Set Implicit Arguments.
Unset Strict Implicit.
Set Default Proof Using "Type*".

Lemma okr_fst S R A (m : M S A) (s : S * R) Q F : okr Q F (m (fst s)) ->
  okr (fun a s' => Q a (fst s') /\ snd s' = snd s) (fun k s' => F k (fst s') /\ snd s' = snd s) (on_fst m s).
Proof. unfold on_fst. destruct (m (fst s)) as [[a|k| |] s']; cbn; auto. Qed.
Lemma okr_snd S R A (m : M R A) (s : S * R) : fst (m (snd s)) <> UB ->
  okr (fun a s' => fst s' = fst s /\ m (snd s) = (Ret a, snd s')) (fun k s' => fst s' = fst s /\ m (snd s) = (Panic k, snd s')) (on_snd m s).
Proof. unfold on_snd. destruct (m (snd s)) as [[a|k| |] u]; cbn; auto. Qed.

Section UserFacts.
  Context {U T : Type} {c : cfg} {X : usercode U T}.
  Local Notation E := (shape X).
  Local Notation P := (EPB c E).
  Local Notation WF := (WF c E).
  Local Notation MW := (M (ev * U)).
  Hypothesis Hc : cfg_ok c.
  Hypothesis Hcomp : compiles c E = true.
  Hypothesis Hai : alloc_isize c.
  Hypothesis Hto : forall x, sane (u_to X x).
  Hypothesis Hfrom : forall d, sane (u_from X d).
  Hypothesis Hclone : forall x, sane (u_clone X x).
  Lemma shape_d (x : T) : to_d E x < 2 ^ BITS E. Proof. cbn. apply pow2_pos. Qed.
  Local Notation raw H := (WF_RC Hc Hcomp shape_d H).

  (** keeps: the vector stays well formed whether or not the call panics *)
  Definition safe_w {A} (r : outcome A * (ev * U)) : Prop := okr (fun _ s' => WF (fst s')) (fun _ s' => WF (fst s')) r.

  Lemma user_same A (m : M U A) (s : ev * U) : sane m ->
    okr (fun _ s' => fst s' = fst s) (fun _ s' => fst s' = fst s) (user m s).
  Proof. intros Hm. eapply okr_mono; [apply (okr_snd (s := s) (Hm (snd s)))|..]; intros ? ? [G _]; exact G. Qed.
  Lemma user_bind A B (m : M U A) (f : A -> MW B) s Q (F : panic -> ev * U -> Prop) : sane m ->
    (forall a s', fst s' = fst s -> okr Q F (f a s')) -> (forall k s', fst s' = fst s -> F k s') -> okr Q F (bind (user m) f s).
  Proof. intros Hm H1 H2. eapply okr_bind_mono; [apply (user_same s Hm)|exact H1|exact H2]. Qed.
  Lemma self_bind A B (m : M ev A) (f : A -> MW B) s Q1 F1 Q (F : panic -> ev * U -> Prop) : okr Q1 F1 (m (fst s)) ->
    (forall a s', Q1 a (fst s') -> okr Q F (f a s')) -> (forall k s', F1 k (fst s') -> F k s') -> okr Q F (bind (self m) f s).
  Proof.
    intros H H1 H2. eapply okr_bind_mono; [apply (okr_fst H)|..].
    - intros a s' [G _]. apply H1. exact G.
    - intros k s' [G _]. apply H2. exact G.
  Qed.

  Lemma get_raw_at v i : WF v -> i < num v -> exists d, get_raw c E i v = Ret (Some d).
  Proof.
    intros Hw Hi. pose proof (raw Hw) as R. rewrite (RC_get_raw Hc Hcomp shape_d i R).
    destruct (nthN_lt_Some (l := @rawlist T c E v) (i := i)) as [d ->]; [rewrite <- (rc_num R); exact Hi|]. eauto.
  Qed.
  Lemma w_get_same i s : WF (fst s) -> okr (fun _ s' => fst s' = fst s) (fun _ s' => fst s' = fst s) (w_get c X i s).
  Proof.
    intros Hw. unfold w_get, self_get. destruct (N.lt_ge_cases i (num (fst s))) as [Hi|Hi].
    - destruct (get_raw_at Hw Hi) as [d Hd]. eapply okr_reads; [exact Hd|]. apply user_bind; [apply Hfrom|cbn; auto|auto].
    - eapply okr_reads. { unfold get_raw, len. rewrite (proj2 (N.leb_le _ _)) by exact Hi. reflexivity. } reflexivity.
  Qed.
  Lemma w_elem_same i s : WF (fst s) -> okr (fun _ s' => fst s' = fst s) (fun _ s' => fst s' = fst s) (w_elem c X i s).
  Proof.
    intros Hw. unfold w_elem. eapply okr_bind_mono; [apply (w_get_same i Hw)| |auto].
    intros [x|] s' G; exact G.
  Qed.
  Lemma w_set_safe i x s : WF (fst s) -> okr (fun _ s' => WF (fst s') /\ num (fst s') = num (fst s)) (fun _ s' => fst s' = fst s) (w_set c X i x s).
  Proof.
    intros Hw. unfold w_set. apply user_bind; [apply Hto| |auto]. intros d s1 G1.
    destruct (N.lt_ge_cases i (num (fst s))) as [Hi|Hi].
    - destruct (any_set_raw Hc Hcomp Hai d Hw Hi) as [v' [Hv G]]. unfold self, on_fst. rewrite G1, Hv. cbn. exact G.
    - unfold self, on_fst, set_raw, len. rewrite G1, (proj2 (N.leb_le _ _)) by exact Hi. cbn. reflexivity.
  Qed.
  Lemma w_push_safe x s : WF (fst s) -> okr (fun _ s' => WF (fst s') /\ num (fst s') = num (fst s) + 1) (fun _ s' => WF (fst s')) (w_push c X x s).
  Proof.
    intros Hw. unfold w_push. pose proof (small_any Hc Hcomp Hai Hw) as Hsm.
    eapply self_bind; [apply (any_grow Hc Hcomp Hai Hw)| |intros k s' ->; exact Hw].
    intros u s1 [G1 [G2 G3]]. unfold self_get. eapply okr_reads; [reflexivity|]. rewrite G2.
    destruct (N.leb_spec (num (fst s) + 1) (usize_max c)) as [Hle|Hgt]; [|exact G1].
    eapply okr_lift; [reflexivity|].
    unfold bind at 1, self at 1, on_fst at 1, set_len.
    assert (Hw2 : WF (mkEv (storage (fst s1)) (num (fst s) + 1))) by (apply (any_set_len Hc Hcomp Hai); [exact G1|lia|exact Hle]).
    eapply okr_mono; [apply (w_set_safe (num (fst s)) x (s := (_, _)) Hw2)|..].
    - intros a s2 [K1 K2]. split; [exact K1|exact K2].
    - intros k s2 K. cbn in K. rewrite K. exact Hw2.
  Qed.
  Lemma w_pop_safe s : WF (fst s) -> okr (fun _ s' => WF (fst s')) (fun _ s' => fst s' = fst s) (w_pop c X s).
  Proof.
    intros Hw. unfold w_pop. unfold is_empty, len. destruct (N.eqb_spec (num (fst s)) 0) as [H0|H0]; [exact Hw|].
    unfold self_get. eapply okr_reads. { apply (usub_ok Hc Hcomp). lia. }
    eapply okr_bind_mono; [apply (w_elem_same _ Hw)| |auto]. intros x s1 G.
    eapply okr_reads. { apply (usub_ok Hc Hcomp). rewrite G. lia. }
    cbn. rewrite G. apply (any_set_len Hc Hcomp Hai); [exact Hw|pose proof (wf_cover Hw); lia|pose proof (wf_num Hw); lia].
  Qed.
  Lemma WF_swap v a b : WF v -> okr (fun _ v' => WF v') (fun _ v' => v' = v) (swap c E a b v).
  Proof.
    intros Hv. pose proof (raw Hv) as HR.
    destruct (N.le_gt_cases (lenN (@rawlist T c E v)) a) as [Ha|Ha]; [|destruct (N.le_gt_cases (lenN (@rawlist T c E v)) b) as [Hb|Hb]].
    - rewrite (RC_swap_oob Hc Hcomp shape_d (ia := a) (ib := b) HR) by auto. reflexivity.
    - rewrite (RC_swap_oob Hc Hcomp shape_d (ia := a) (ib := b) HR) by auto. reflexivity.
    - destruct (nthN_lt_Some Ha) as [x Hx]. destruct (nthN_lt_Some Hb) as [y Hy].
      eapply okr_mono; [apply (RC_swap Hc Hcomp shape_d HR Hx Hy)|..].
      + intros u v' G. exact (rc_wf G).
      + intros k v' [].
  Qed.
  Lemma usub_not_UB a b : usub c a b <> UB.
  Proof. unfold usub. destruct (b <=? a); [discriminate|]. destruct (ovf c); discriminate. Qed.
  Lemma reads_any S A B (g : S -> outcome A) (f : A -> M S B) s Q (F : panic -> S -> Prop) : g s <> UB ->
    (forall a, g s = Ret a -> okr Q F (f a s)) -> (forall k, F k s) -> okr Q F (bind (reads g) f s).
  Proof. intros H1 H2 H3. unfold bind, reads. destruct (g s); cbn; auto. Qed.
  Lemma w_swap_remove_safe i s : WF (fst s) -> safe_w (w_swap_remove c X i s).
  Proof.
    intros Hw. unfold w_swap_remove, self_get. apply reads_any; [apply usub_not_UB| |auto]. intros last _.
    eapply self_bind; [apply (WF_swap _ _ Hw)| |intros k s' ->; exact Hw]. intros u s1 G1.
    eapply okr_bind_mono; [apply (w_pop_safe G1)|..].
    - intros [x|] s2 G2; exact G2.
    - intros k s2 ->. exact G1.
  Qed.
  Lemma w_insert_safe i x s : WF (fst s) -> safe_w (w_insert c X i x s).
  Proof.
    intros Hw. unfold w_insert. eapply okr_bind_mono; [apply (w_push_safe x Hw)| |auto].
    intros u s1 [G1 Hn1]. apply user_bind; [apply Hto| |intros k s' ->; exact G1]. intros d s2 G2. rewrite <- G2 in G1.
    pose proof (okr_fst (s := s2) (insert_tail_safe Hc Hcomp shape_d i d G1)) as H. unfold self. eapply okr_mono; [exact H|..].
    - intros a s' [[G _] _]. exact G.
    - intros k s' [[_ [_ [G _]]] _]. exact G.
  Qed.

  (** the type whose from_discr always answers x: remove under it is remove's code after the call of from_discr *)
  Definition const_shape (x : T) : enumlike T := {| nv := u_nv X; to_d := fun _ => 0; from_d := fun _ => Some x |}.
  Lemma remove_tail_safe (x : T) i v : WF v -> i < num v ->
    okr (fun _ v' => WF v') (fun _ v' => WF v') ((
      length <- reads (fun v => usub c (len v) 1) ;;
      block_limit <- lift (umul c (1 + fst (block_index c E i)) P) ;;
      j <- remove_slow c E (N.to_nat (N.min length block_limit - i)) i ;;
      last <- reads (fun v => usub c (len v) 1) ;;
      prev <- reads (get_raw_unchecked c E last) ;;
      n1 <- reads (fun v => usub c (num v) 1) ;;
      set_len n1 ;;;
      self_len <- reads (fun v => Ret (len v)) ;;
      (if j <? self_len then
        l <- lift (usub c self_len 1) ;;
        remove_blocks c E (N.to_nat (fst (block_index c E l) + 1 - fst (block_index c E j)))
          (fst (block_index c E j)) (cast_block c prev)
      else ret tt) ;;; ret x) v).
  Proof.
    intros Hw Hi.
    assert (Hw1 : EvFacts.WF c (const_shape x) v) by (destruct Hw; constructor; assumption).
    assert (Hd1 : forall y, to_d (const_shape x) y < 2 ^ BITS (const_shape x)) by (intros y; cbn; apply pow2_pos).
    pose proof (RC_remove_safe (E := const_shape x) Hc Hcomp Hd1 i (WF_RC (E := const_shape x) Hc Hcomp Hd1 Hw1)) as H.
    unfold remove in H. unfold bind at 1 in H. unfold reads at 1 in H.
    destruct (get_raw_at Hw Hi) as [d Hd]. unfold get in H. change (get_raw c (const_shape x) i v) with (get_raw c E i v) in H.
    rewrite Hd in H. cbn [obind from_discr from_d const_shape unwrap] in H.
    eapply okr_mono; [exact H|..].
    - intros a v' [G _]. destruct G; constructor; assumption.
    - intros k v' [[_ [-> _]]|[[_ [-> _]]|[[_ [_ [_ [G _]]]]|[_ [_ [-> _]]]]]]; try exact Hw. destruct G; constructor; assumption.
  Qed.
  Lemma bind_assoc S A B C (m : M S A) (f : A -> M S B) (g : B -> M S C) s : bind (bind m f) g s = bind m (fun a => bind (f a) g) s.
  Proof. unfold bind. destruct (m s) as [[a|k| |] s']; reflexivity. Qed.
  Lemma bind_ext S A B (m : M S A) (f g : A -> M S B) s : (forall a s', f a s' = g a s') -> bind m f s = bind m g s.
  Proof. intros H. unfold bind. destruct (m s) as [[a|k| |] s']; auto. Qed.
  Lemma w_remove_safe i s : WF (fst s) -> safe_w (w_remove c X i s).
  Proof.
    intros Hw. unfold w_remove. destruct (N.lt_ge_cases i (num (fst s))) as [Hi|Hi].
    - eapply okr_bind_mono; [apply (w_elem_same i Hw)| |intros k s' ->; exact Hw]. intros x s1 G.
      rewrite <- G in Hw, Hi. pose proof (remove_tail_safe x Hw Hi) as H.
      match type of H with okr _ _ (?m _) => set (M0 := m) in H end.
      match goal with |- okr _ _ (bind (self ?m) _ _) => set (M1 := m) end.
      assert (E1 : M0 (fst s1) = bind M1 (fun _ => ret x) (fst s1)).
      { unfold M0, M1. repeat (rewrite bind_assoc; apply bind_ext; intros ? ?). reflexivity. }
      rewrite E1 in H. unfold bind in H. unfold bind at 1. unfold self, on_fst. destruct (M1 (fst s1)) as [[a|k| |] v']; cbn in *; auto.
    - unfold w_elem, w_get, self_get. unfold bind at 1 2 3. unfold reads. unfold get_raw, len. rewrite (proj2 (N.leb_le _ _)) by exact Hi. cbn. exact Hw.
  Qed.

  Lemma w_retain_loop_safe f n : (forall x, sane (f x)) -> forall i j s, WF (fst s) -> j <= i -> i + N.of_nat n = num (fst s) ->
    okr (fun r s' => WF (fst s') /\ num (fst s') = num (fst s) /\ r <= num (fst s)) (fun _ s' => WF (fst s')) (w_retain_loop c X f n i j s).
  Proof.
    intros Hf. induction n as [|n IH]; intros i j s Hw Hj Hn; cbn [w_retain_loop].
    - cbn. split; [exact Hw|split; [reflexivity|lia]].
    - eapply okr_bind_mono; [apply (w_elem_same i Hw)| |intros k s' ->; exact Hw]. intros x s1 G1.
      apply user_bind; [apply Hf| |intros k s' ->; rewrite G1; exact Hw]. intros b s2 G2.
      rewrite G1 in G2. assert (Hw2 : WF (fst s2)) by (rewrite G2; exact Hw). destruct b.
      + eapply okr_bind_mono; [apply (w_set_safe j x Hw2)| |intros k s' ->; exact Hw2]. intros u s3 [G3 G4].
        rewrite G2 in G4. eapply okr_mono; [apply (IH (i + 1) (j + 1) s3 G3); lia|..].
        * intros r s' [K1 [K2 K3]]. split; [exact K1|split; lia].
        * auto.
      + rewrite <- G2. apply IH; [exact Hw2|lia|]. rewrite G2. lia.
  Qed.
  Lemma w_retain_safe f s : (forall x, sane (f x)) -> WF (fst s) -> safe_w (w_retain c X f s).
  Proof.
    intros Hf Hw. unfold w_retain, self_get. eapply okr_reads; [reflexivity|]. unfold len.
    eapply okr_bind_mono; [apply (w_retain_loop_safe (n := N.to_nat (num (fst s))) Hf (i := 0) (j := 0) Hw); lia| |auto].
    intros r s1 [G1 [G2 G3]]. cbn. apply (any_set_len Hc Hcomp Hai); [exact G1|pose proof (wf_cover G1); lia|pose proof (wf_num G1); lia].
  Qed.
  Lemma w_for_each_loop_safe f n : (forall x, sane (f x)) -> forall i s, WF (fst s) -> safe_w (w_for_each_loop c X f n i s).
  Proof.
    intros Hf. induction n as [|n IH]; intros i s Hw; cbn [w_for_each_loop]; [exact Hw|].
    eapply okr_bind_mono; [apply (w_elem_same i Hw)| |intros k s' ->; exact Hw]. intros x s1 G1.
    apply user_bind; [apply Hf| |intros k s' ->; rewrite G1; exact Hw]. intros y s2 G2. rewrite G1 in G2.
    assert (Hw2 : WF (fst s2)) by (rewrite G2; exact Hw).
    eapply okr_bind_mono; [apply (w_set_safe i y Hw2)| |intros k s' ->; exact Hw2]. intros u s3 [G3 _]. apply IH. exact G3.
  Qed.

  Section Extend.
    Context {I : Type} {next : I -> M U (option T * I)}.
    Hypothesis Hnext : forall it, sane (next it).
    Lemma w_known_safe n : forall i sl it s, WF (fst s) -> sl + i + N.of_nat n <= num (fst s) ->
      okr (fun _ s' => WF (fst s') /\ num (fst s') = num (fst s)) (fun _ s' => WF (fst s') /\ num (fst s') = num (fst s)) (w_known c X next n i sl it s).
    Proof.
      induction n as [|n IH]; intros i sl it s Hw Hn; cbn [w_known]; [cbn; auto|].
      pose proof (small_any Hc Hcomp Hai Hw) as Hsm. eapply okr_lift. { apply (uadd_ok Hc Hcomp). lia. }
      apply user_bind; [apply Hnext| |intros k s' ->; auto]. intros [[x|] it'] s1 G1; cbn [fst snd].
      - eapply okr_lift; [reflexivity|]. rewrite <- G1 in Hw, Hn |- *.
        eapply okr_bind_mono; [apply (w_set_safe (sl + i) x Hw)| |intros k s' ->; auto]. intros u s2 [G2 G3].
        eapply okr_mono; [apply (IH (i + 1) sl it' s2 G2); lia|..]; intros ? ? [K1 K2]; split; congruence || auto.
      - cbn. rewrite G1. auto.
    Qed.
    Lemma w_rest_safe fuel : forall it s, WF (fst s) -> safe_w (w_rest c X next fuel it s).
    Proof.
      induction fuel as [|fuel IH]; intros it s Hw; cbn [w_rest]; [exact Logic.I|].
      apply user_bind; [apply Hnext| |intros k s' ->; exact Hw]. intros [[x|] it'] s1 G1; cbn [fst snd].
      - rewrite <- G1 in Hw. eapply okr_bind_mono; [apply (w_push_safe x Hw)| |auto]. intros u s2 [G2 _]. apply IH. exact G2.
      - cbn. rewrite G1. exact Hw.
    Qed.
    Lemma w_extend_safe fuel hint it s : sane hint -> hints c X hint -> WF (fst s) -> safe_w (w_extend c X next fuel hint it s).
    Proof.
      intros Hh1 Hh2 Hw. unfold w_extend.
      eapply okr_bind_mono; [apply (okr_snd (s := s) (Hh1 (snd s)))| |intros k s' [-> _]; exact Hw].
      intros n s1 [G1 G2]. specialize (Hh2 (snd s)). rewrite G2 in Hh2. cbn in Hh2. rewrite <- G1 in Hw. clear G1 G2.
      unfold self_get at 1. eapply okr_reads; [reflexivity|].
      eapply self_bind; [apply (any_reserve Hc Hcomp Hai Hw Hh2)| |intros k s' ->; exact Hw]. intros u s2 [G1 [G2 [G3 G4]]].
      unfold self_get. eapply okr_reads. { rewrite G2. apply (uadd_ok Hc Hcomp). exact G4. }
      unfold bind at 1, self at 1, on_fst at 1, set_len.
      assert (Hw2 : WF (mkEv (storage (fst s2)) (num (fst s1) + n))) by (apply (any_set_len Hc Hcomp Hai); [exact G1|exact G3|exact G4]).
      eapply okr_bind_mono; [apply (w_known_safe (n := N.to_nat n) (i := 0) (sl := len (fst s1)) it (s := (_, _)) Hw2); cbn; unfold len; lia|..].
      - intros it' s3 [K _]. apply w_rest_safe. exact K.
      - intros k s3 [K _]. exact K.
    Qed.
  End Extend.

  Lemma sane_ret A (a : A) : sane (U := U) (ret a). Proof. intros u. discriminate. Qed.
  Lemma sane_bind A B (m : M U A) (f : A -> M U B) : sane m -> (forall a, sane (f a)) -> sane (bind m f).
  Proof. intros H1 H2 u. specialize (H1 u). unfold bind. destruct (m u) as [[a|k| |] u']; [apply H2|discriminate|discriminate|contradiction H1; reflexivity]. Qed.
  Lemma take_sane x n : sane (take_next X x n).
  Proof. unfold take_next. destruct (n =? 0); [apply sane_ret|]. apply sane_bind; [apply Hclone|]. intros y. apply sane_ret. Qed.
  Lemma cloned_sane l : sane (cloned_next X l).
  Proof. destruct l as [|x l]; [apply sane_ret|]. apply sane_bind; [apply Hclone|]. intros y. apply sane_ret. Qed.
  Lemma vec_sane l : sane (U := U) (@vec_next U T l).
  Proof. destruct l; apply sane_ret. Qed.
  Lemma ret_hints n : amount c E n = true -> hints c X (ret n).
  Proof. intros H u. exact H. Qed.
  Lemma w_repeat_safe x n s : WF (fst s) -> amount c E n = true -> safe_w (w_repeat c X x n s).
  Proof. intros Hw Hn. apply (w_extend_safe (next := take_next X x)); [intros k; apply take_sane|apply sane_ret|apply ret_hints; exact Hn|exact Hw]. Qed.

  (** repeat(x).take(n) yields at least n items, so a successful extend adds n elements *)
  Lemma take_known x n : forall i sl m s, WF (fst s) -> sl + i + N.of_nat n <= num (fst s) -> m = N.of_nat n ->
    okr (fun m' s' => m' = 0 /\ WF (fst s') /\ num (fst s') = num (fst s)) (fun _ s' => WF (fst s')) (w_known c X (take_next X x) n i sl m s).
  Proof.
    induction n as [|n IH]; intros i sl m s Hw Hn Hm; cbn [w_known].
    - cbn. split; [exact Hm|auto].
    - pose proof (small_any Hc Hcomp Hai Hw) as Hsm. eapply okr_lift. { apply (uadd_ok Hc Hcomp). lia. }
      unfold take_next at 1. rewrite (proj2 (N.eqb_neq m 0)) by lia.
      eapply okr_bind_mono; [apply (okr_snd (m := y <- u_clone X x ;; ret (Some y, m - 1)) (s := s))| |intros k s' [-> _]; exact Hw].
      { apply sane_bind; [apply Hclone|intros y; apply sane_ret]. }
      intros r s1 [G1 G2]. assert (Hr : exists y, r = (Some y, m - 1)).
      { unfold bind in G2. destruct (u_clone X x (snd s)) as [[y|k| |] u']; try discriminate. cbn in G2. injection G2 as <- _. eauto. }
      destruct Hr as [y ->]. cbn [fst snd]. eapply okr_lift; [reflexivity|]. rewrite <- G1 in Hw, Hn |- *.
      eapply okr_bind_mono; [apply (w_set_safe (sl + i) y Hw)| |intros k s' ->; auto]. intros u s2 [K1 K2].
      eapply okr_mono; [apply (IH (i + 1) sl (m - 1) s2 K1); lia|..].
      + intros m' s' [Q1 [Q2 Q3]]. split; [exact Q1|split; [exact Q2|lia]].
      + auto.
  Qed.
  Lemma w_repeat_num x n s : WF (fst s) -> amount c E n = true ->
    okr (fun _ s' => WF (fst s') /\ num (fst s') = num (fst s) + n) (fun _ s' => WF (fst s')) (w_repeat c X x n s).
  Proof.
    intros Hw Hn. unfold w_repeat, w_extend. unfold bind at 1, user at 1, on_snd at 1, ret at 1. destruct s as [v u]. cbn [fst snd] in *.
    unfold self_get at 1. eapply okr_reads; [reflexivity|].
    eapply (self_bind (s := (v, u))); [apply (any_reserve Hc Hcomp Hai Hw Hn)| |intros k s' ->; exact Hw]. intros a s2 [G1 [G2 [G3 G4]]].
    unfold self_get. eapply okr_reads. { rewrite G2. apply (uadd_ok Hc Hcomp). exact G4. }
    unfold bind at 1, self at 1, on_fst at 1, set_len.
    assert (Hw2 : WF (mkEv (storage (fst s2)) (num v + n))) by (apply (any_set_len Hc Hcomp Hai); [exact G1|exact G3|exact G4]).
    eapply okr_bind_mono; [apply (take_known x (n := N.to_nat n) (i := 0) (sl := len v) (m := n) (s := (_, _)) Hw2); [cbn; unfold len; lia|lia]| |auto].
    intros m' s3 [-> [K2 K3]]. cbn in K3. cbn [w_rest]. cbn. split; [exact K2|exact K3].
  Qed.

  (** the middle part of extend_with_value, mod.rs:496-519 *)
  Lemma fill_safe d v cb (last : N) : WF v -> num v mod P = 0 -> num v + cb * P <= usize_max c -> 1 <= cb ->
    okr (fun _ v' => WF v') (fun _ v' => WF v') ((
        block_value <- lift (fill_pattern c 9 (cast_block c d) (BITS E)) ;;
        old_len <- reads (fun v => Ret (len v)) ;;
        fix_storage c E ;;;
        on_storage (vec_reserve c (cb + (if 0 <? last then 1 else 0))) ;;;
        fill_blocks c cb block_value ;;;
        mid <- lift (umul c cb P) ;;
        n <- lift (uadd c old_len mid) ;;
        set_len n) v).
  Proof.
    intros G Hal Hle Hcb3. destruct (fill_any Hc Hcomp Hai d) as [bv [Hbv1 Hbv2]].
    eapply okr_lift; [exact Hbv1|]. eapply okr_reads; [reflexivity|].
    pose proof (raw G) as RG. pose proof (rc_num RG) as HRG. pose proof (Ppos_any Hc Hcomp Hai) as HP.
    assert (Hfx : fixable c E (lenN (@rawlist T c E v))).
    { apply (aligned_fixable Hc Hcomp); [|apply (RC_max Hc Hcomp shape_d RG)]. rewrite <- HRG. exact Hal. }
    eapply okr_bind_mono; [apply (RC_fix_storage Hc Hcomp shape_d (ds := _) Hfx RG)| |intros k s []].
    intros u2 v2 [G2 [Hn2 [Hv2 _]]]. pose proof (rc_wf G2) as W2.
    pose proof (wf_alloc W2) as Hal2. pose proof (wf_cap W2) as Hcap2. pose proof (wf_cover W2) as Hcov2.
    unfold bind at 1. unfold on_storage at 1, vec_reserve.
    destruct (vec_ensure_cases Hc Hcomp shape_d (vlen (storage v2) + (cb + (if 0 <? last then 1 else 0))) Hal2)
      as [[cap' [-> [K1 [K2 K3]]]]|[->| ->]]; cbn [okr]; [| |exact Logic.I].
    2:{ exact W2. }
    set (v2' := mkEv (mkRvec (data (storage v2)) cap') (num v2)).
    assert (W2' : WF v2').
    { constructor; cbn; [apply (wf_blocks W2)|exact Hcov2|unfold vlen in *; cbn; lia|exact K3|exact (wf_num W2)]. }
    unfold fill_blocks.
    eapply okr_bind_mono.
    { apply (fill_blocks_loop Hc Hcomp shape_d (N.to_nat cb) (cb := cb) (bv := bv) Hai 0 (v := v2')).
      - apply (wf_blocks W2').
      - apply (wf_cap W2').
      - apply (wf_alloc W2').
      - exact Hcb3.
      - lia.
      - exact Hbv2. }
    2:{ intros k v' [_ [Q1 [[j [Q2 Q3]] [Q4 Q5]]]]. constructor; auto.
        - rewrite Q3. apply Forall_app; split; [apply (wf_blocks W2')|apply Forall_repeat; exact Hbv2].
        - rewrite Q1. unfold vlen. rewrite Q3, lenN_app. pose proof (wf_cover W2') as Y. unfold vlen in Y.
          eapply N.le_trans; [exact Y|]. apply N.mul_le_mono_l. apply N.le_add_r.
        - rewrite Q1. exact (wf_num W2'). }
    intros u3 v3 [Q1 [Q3 [Q4 Q5]]].
    eapply okr_lift. { apply (umul_ok Hc Hcomp). lia. }
    eapply okr_lift. { apply (uadd_ok Hc Hcomp). unfold len. lia. }
    cbn. constructor; auto.
    - cbn. rewrite Q3. apply Forall_app; split; [apply (wf_blocks W2')|apply Forall_repeat; exact Hbv2].
    - cbn. unfold vlen. rewrite Q3, lenN_app, lenN_repeat. pose proof (wf_cover W2') as Y. unfold vlen in Y. cbn [num v2'] in Y.
      rewrite Hn2 in Y. pose proof (sq_le Hcb3) as Z. clear - Y Z. unfold len.
      rewrite N.mul_add_distr_l, (N.mul_comm cb P). apply N.add_le_mono; [exact Y|].
      apply N.mul_le_mono_l. cbn in Z |- *. lia.
  Qed.
  Lemma w_with_value_safe x count s : WF (fst s) -> num (fst s) + count <= usize_max c -> safe_w (w_extend_with_value c X x count s).
  Proof.
    intros Hw Hcount. unfold w_extend_with_value. pose proof (Ppos_any Hc Hcomp Hai) as HP. pose proof (small_any Hc Hcomp Hai Hw) as Hsm.
    destruct (N.leb_spec count (4 * P)) as [Hle|Hgt].
    - apply w_repeat_safe; [exact Hw|]. apply (small_block Hc Hcomp Hai). exact Hle.
    - unfold self_get. eapply okr_reads; [reflexivity|]. unfold len. set (v := fst s) in *. set (first := P - num v mod P).
      assert (Hfirst : 1 <= first <= P).
      { unfold first. pose proof (N.mod_lt (num v) P ltac:(lia)). lia. }
      eapply okr_bind_mono.
      { apply (w_repeat_num x (n := first) Hw). apply (small_block Hc Hcomp Hai). lia. }
      2:{ auto. }
      intros u s1 [G Hn1]. fold v in Hn1. set (v1 := fst s1) in *.
      assert (Hal1 : num v1 = P * (num v / P + 1)).
      { rewrite Hn1. unfold first. pose proof (N.div_mod (num v) P ltac:(lia)). pose proof (N.mod_lt (num v) P ltac:(lia)). lia. }
      set (ce := count - first). set (cb := ce / P).
      eapply okr_lift. { apply (usub_ok Hc Hcomp). lia. } fold ce. cbv zeta. fold cb.
      assert (Hcb : P * cb <= ce) by (apply N.mul_div_le; lia).
      assert (Hcb3 : 1 <= cb) by (apply N.div_le_lower_bound; lia).
      assert (Hcbm : ce < P * (cb + 1)).
      { unfold cb. pose proof (N.mul_succ_div_gt ce P ltac:(lia)). lia. }
      eapply okr_lift. { apply (umul_ok Hc Hcomp). lia. }
      eapply okr_lift. { apply (uadd_ok Hc Hcomp). lia. }
      eapply okr_lift. { apply (usub_ok Hc Hcomp). lia. }
      set (last := count - (first + cb * P)).
      apply user_bind; [apply Hto| |intros k s' ->; exact G]. intros d s2 G2. fold v1 in G2. rewrite <- G2 in G, Hal1, Hn1.
      eapply self_bind.
      { apply (fill_safe d (cb := cb) last G); [|lia|exact Hcb3]. rewrite Hal1, N.mul_comm. apply N.mod_mul. lia. }
      2:{ auto. }
      intros a s3 G3. apply w_repeat_safe; [exact G3|]. apply (small_block Hc Hcomp Hai). unfold last. lia.
  Qed.
  Lemma w_resize_safe x n s : WF (fst s) -> usz c n = true -> safe_w (w_resize c X n x s).
  Proof.
    intros Hw Hn. unfold w_resize, self_get. eapply okr_reads; [reflexivity|]. unfold len.
    destruct (N.ltb_spec (num (fst s)) n) as [Hlt|Hge].
    - eapply okr_lift. { apply (usub_ok Hc Hcomp). lia. } apply w_with_value_safe; [exact Hw|]. unfold usz in Hn. lia.
    - unfold self, on_fst, truncate. destruct (n <? num (fst s)) eqn:Hx; [|exact Hw].
      cbn. apply (any_set_len Hc Hcomp Hai); [exact Hw|pose proof (wf_cover Hw); lia|pose proof (wf_num Hw); lia].
  Qed.

  Lemma lift_any S A (o : outcome A) (s : S) (Q : A -> S -> Prop) (F : panic -> S -> Prop) : o <> UB -> (forall a, o = Ret a -> Q a s) -> (forall k, F k s) -> okr Q F (lift o s).
  Proof. intros H1 H2 H3. unfold lift. destruct o; cbn; auto. Qed.
  Lemma lift_bind S A B (o : outcome A) (f : A -> M S B) s Q (F : panic -> S -> Prop) : o <> UB ->
    (forall a, o = Ret a -> okr Q F (f a s)) -> (forall k, F k s) -> okr Q F (bind (lift o) f s).
  Proof. intros H1 H2 H3. unfold bind, lift. destruct o; cbn; auto. Qed.
  Lemma w_any_same x s : WF (fst s) -> okr (fun _ s' => fst s' = fst s) (fun _ s' => fst s' = fst s) (w_any c X x s).
  Proof.
    intros Hw. unfold w_any. destruct (is_empty (fst s)); [reflexivity|]. unfold block_index.
    apply lift_bind; [unfold one_mask; apply (shr_not_UB Hc Hcomp Hai)| |auto]. intros one _.
    apply lift_bind; [apply (shl_not_UB Hc Hcomp Hai)| |auto]. intros high _.
    apply user_bind; [apply Hto| |auto]. intros d s1 G. apply lift_any; [|intros; exact G|auto].
    apply obind_not_UB; [apply (bmul_not_UB Hc Hcomp Hai)|]. intros xm. apply obind_not_UB; [apply (any_loop_not_UB Hc Hcomp Hai)|]. intros [|]; [discriminate|].
    destruct (negb _); [|discriminate]. apply obind_not_UB; [apply (shl_not_UB Hc Hcomp Hai)|]. intros m. apply obind_not_UB; [apply load_not_UB|]. discriminate.
  Qed.
  Lemma w_all_same x s : WF (fst s) -> okr (fun _ s' => fst s' = fst s) (fun _ s' => fst s' = fst s) (w_all c X x s).
  Proof.
    intros Hw. unfold w_all. destruct (is_empty (fst s)); [reflexivity|]. unfold block_index.
    apply lift_bind; [apply (shr_not_UB Hc Hcomp Hai)| |auto]. intros valid _.
    apply lift_bind; [unfold one_mask; apply (shr_not_UB Hc Hcomp Hai)| |auto]. intros one _.
    apply user_bind; [apply Hto| |auto]. intros d s1 G. apply lift_any; [|intros; exact G|auto].
    apply obind_not_UB; [apply (bmul_not_UB Hc Hcomp Hai)|]. intros xm. apply obind_not_UB; [apply all_loop_not_UB|]. intros ok.
    destruct (negb ok); [discriminate|].
    destruct (negb _); [|discriminate]. apply obind_not_UB; [apply (shl_not_UB Hc Hcomp Hai)|]. intros m. apply obind_not_UB; [apply load_not_UB|]. discriminate.
  Qed.
  Lemma w_visit_same f n : (forall x, sane (f x)) -> forall i s, WF (fst s) ->
    okr (fun _ s' => fst s' = fst s) (fun _ s' => fst s' = fst s) (w_visit c X f n i s).
  Proof.
    intros Hf. induction n as [|n IH]; intros i s Hw; cbn [w_visit]; [reflexivity|].
    eapply okr_bind_mono; [apply (w_elem_same i Hw)| |auto]. intros x s1 G1.
    apply user_bind; [apply Hf| |intros; congruence]. intros [] s2 G2. rewrite G1 in G2. rewrite <- G2 in Hw |- *.
    eapply okr_bind_mono; [apply (IH (i + 1) s2 Hw)| |auto]. intros l s3 G3. exact G3.
  Qed.
  Lemma w_item_same o s : WF (fst s) -> okr (fun _ s' => fst s' = fst s) (fun _ s' => fst s' = fst s) (w_item c X o s).
  Proof.
    intros Hw. destruct o as [i|]; [|reflexivity]. cbn. eapply okr_bind_mono; [apply (w_elem_same i Hw)| |auto]. intros x s1 G. exact G.
  Qed.
  Lemma w_iter_same calls : forall r s, WF (fst s) -> okr (fun _ s' => fst s' = fst s) (fun _ s' => fst s' = fst s) (w_iter c X r calls s).
  Proof.
    induction calls as [|ca calls IH]; intros r s Hw; cbn [w_iter]; [reflexivity|].
    assert (G : forall (m : M (ev * U) (ires T)) r', (okr (fun _ s' => fst s' = fst s) (fun _ s' => fst s' = fst s) (m s)) ->
      okr (fun _ s' => fst s' = fst s) (fun _ s' => fst s' = fst s) ((x <- m ;; l <- w_iter c X r' calls ;; ret (x :: l)) s)).
    { intros m r' Hm. eapply okr_bind_mono; [exact Hm| |auto]. intros x s1 G1. rewrite <- G1 in Hw |- *.
      eapply okr_bind_mono; [apply (IH r' s1 Hw)| |auto]. intros l s2 G2. exact G2. }
    assert (Gi : forall o, okr (fun _ s' => fst s' = fst s) (fun _ s' => fst s' = fst s) ((x <- w_item c X o ;; ret (JItem x)) s)).
    { intros o. eapply okr_bind_mono; [apply (w_item_same o Hw)| |auto]. intros x s1 G1. exact G1. }
    destruct ca as [| |n| |].
    - destruct (range_next r) as [o r']. apply G, Gi.
    - destruct (range_next_back r) as [o r']. apply G, Gi.
    - destruct (range_nth n r) as [o r']. apply G, Gi.
    - apply G. reflexivity.
    - apply G. reflexivity.
  Qed.
  Lemma w_hash_loop_same h n : (forall d, sane (h d)) -> forall i s, WF (fst s) -> i + N.of_nat n <= num (fst s) ->
    okr (fun _ s' => fst s' = fst s) (fun _ s' => fst s' = fst s) (w_hash_loop c X h n i s).
  Proof.
    intros Hh. induction n as [|n IH]; intros i s Hw Hn; cbn [w_hash_loop]; [reflexivity|].
    destruct (get_raw_at (i := i) Hw) as [d Hd]; [lia|]. unfold get_raw, len in Hd. rewrite (proj2 (N.leb_gt _ _)) in Hd by lia.
    unfold self_get. eapply (okr_reads (a := d)). { cbn [fst]. destruct (get_raw_unchecked c E i (fst s)); cbn in Hd; congruence. }
    apply user_bind; [apply Hh| |auto]. intros [] s1 G1. rewrite <- G1 in Hw, Hn |- *. apply IH; [exact Hw|lia].
  Qed.

  (** *** one call, on the pool *)
  Definition safe_wout (r : mout T * (list ev * U)) : Prop :=
    match fst r with MUB => False | MAbort => True | _ => Forall WF (fst (snd r)) end.
  Lemma wout_panic k p u : Forall WF p -> safe_wout (of_panic k, (p, u)).
  Proof. intros H. unfold safe_wout. destruct k; exact H. Qed.
  Lemma w_on_safe A p u r (m : MW A) k : Forall WF p -> (forall v, WF v -> safe_w (m (v, u))) -> safe_wout (w_on p u r m k).
  Proof.
    intros H Hm. unfold w_on. destruct (nth_error p r) as [v|] eqn:Hv; [|exact H].
    specialize (Hm v (Forall_nth_error H Hv)). destruct (m (v, u)) as [[a|q| |] s']; cbn in Hm; cbn [of_outcome].
    - cbn. apply Forall_upd; assumption.
    - apply wout_panic. apply Forall_upd; assumption.
    - exact Logic.I.
    - contradiction.
  Qed.
  Lemma w_on_same A p u r (m : MW A) k : Forall WF p ->
    (forall v, WF v -> okr (fun _ s' => fst s' = v) (fun _ s' => fst s' = v) (m (v, u))) -> safe_wout (w_on p u r m k).
  Proof.
    intros H Hm. apply w_on_safe; [exact H|]. intros v Hv. eapply okr_mono; [apply (Hm v Hv)|..]; intros ? ? ->; exact Hv.
  Qed.
  Lemma w_new_safe A p u (m : MW A) : Forall WF p -> safe_w (m (ev_new c, u)) -> safe_wout (w_new p u (w_build c m)).
  Proof.
    intros H Hm. unfold w_new, w_build. destruct (m (ev_new c, u)) as [[a|q| |] s']; cbn in Hm; cbn [of_outcome].
    - cbn. apply Forall_app. auto.
    - apply wout_panic. exact H.
    - exact Logic.I.
    - contradiction.
  Qed.
  Lemma WF_new : WF (ev_new c). Proof. exact (rc_wf (RC_new Hc Hcomp shape_d)). Qed.
  Lemma shared_sane (next : M U (option T)) it : sane next -> sane (shared_next next it).
  Proof. intros H. apply sane_bind; [exact H|]. intros x. apply sane_ret. Qed.

  Hypothesis Hroomy : roomy c.
  Theorem w_step_safe p u o : Forall WF p -> tame_wop c X o -> safe_wout (w_step c X (p, u) o).
  Proof.
    intros H Hok. pose proof WF_new as HN. assert (num (ev_new c) = 0) as H0 by reflexivity.
    destruct o; cbn [tame_wop] in Hok; cbn [w_step].
    - destruct (silent o) eqn:Hsil; [|exact H].
      pose proof (any_step Hc Hcomp Hai H (tame_safe Hc Hroomy Hcomp (proj2 (any_Forall_valid Hc Hcomp Hai p) H) Hok)) as G.
      unfold safe_any_out in G. destruct (m_step c E p o) as [r p']. cbn [fst snd] in G. unfold safe_wout. cbn [fst snd]. exact G.
    - apply w_on_safe; [exact H|]. intros v Hv. eapply okr_mono; [apply (w_push_safe x (s := (v, u)) Hv)|..]; [intros ? ? [G _]; exact G|auto].
    - apply w_on_safe; [exact H|]. intros v Hv. eapply okr_mono; [apply (w_pop_safe (s := (v, u)) Hv)|..]; [auto|intros ? ? ->; exact Hv].
    - apply w_on_safe; [exact H|]. intros v Hv. apply w_insert_safe. exact Hv.
    - apply w_on_safe; [exact H|]. intros v Hv. apply w_remove_safe. exact Hv.
    - apply w_on_safe; [exact H|]. intros v Hv. apply w_swap_remove_safe. exact Hv.
    - apply w_on_safe; [exact H|]. intros v Hv. apply w_resize_safe; [exact Hv|exact Hok].
    - apply w_on_same; [exact H|]. intros v Hv. apply (w_get_same i (s := (v, u)) Hv).
    - apply w_on_safe; [exact H|]. intros v Hv. eapply okr_mono; [apply (w_set_safe i x (s := (v, u)) Hv)|..]; [intros ? ? [G _]; exact G|intros ? ? ->; exact Hv].
    - apply w_on_safe; [exact H|]. destruct Hok as [H1 [H2 H3]]. intros v Hv. apply w_extend_safe; [intros it; apply shared_sane; exact H3|exact H1|exact H2|exact Hv].
    - apply w_on_safe; [exact H|]. intros v Hv. apply w_retain_safe; [exact Hok|exact Hv].
    - apply w_on_safe; [exact H|]. intros v Hv. unfold w_for_each, self_get. eapply okr_reads; [reflexivity|]. apply w_for_each_loop_safe; [exact Hok|exact Hv].
    - apply w_on_same; [exact H|]. intros v Hv. apply (w_any_same x (s := (v, u)) Hv).
    - apply w_on_same; [exact H|]. intros v Hv. apply (w_all_same x (s := (v, u)) Hv).
    - apply w_on_same; [exact H|]. intros v Hv. unfold w_each, self_get. eapply okr_reads; [reflexivity|]. apply (w_visit_same _ Hok 0 (s := (v, u)) Hv).
    - apply w_on_same; [exact H|]. intros v Hv. apply (w_iter_same calls _ (s := (v, u)) Hv).
    - apply w_on_same; [exact H|]. intros v Hv. unfold w_hash, self_get. eapply okr_reads; [reflexivity|]. apply (w_hash_loop_same Hok (s := (v, u)) Hv). cbn. unfold len. lia.
    - apply w_new_safe; [exact H|]. apply w_with_value_safe; [exact HN|]. cbn [fst]. rewrite H0. unfold usz in Hok. lia.
    - apply w_new_safe; [exact H|]. apply w_extend_safe; [intros it; apply cloned_sane|apply sane_ret|apply ret_hints; exact Hok|exact HN].
    - apply w_new_safe; [exact H|]. apply w_extend_safe; [intros it; apply vec_sane|apply sane_ret|apply ret_hints; exact Hok|exact HN].
    - apply w_new_safe; [exact H|]. destruct Hok as [H1 [H2 H3]]. apply w_extend_safe; [intros it; apply shared_sane; exact H3|exact H1|exact H2|exact HN].
  Qed.
  Theorem w_play_safe n k : tame_wclient c X k -> forall seen s, Forall WF (fst s) ->
    ~ In MUB (fst (w_play c X n k seen s)) /\
    (~ In MAbort (fst (w_play c X n k seen s)) -> Forall WF (fst (snd (w_play c X n k seen s)))).
  Proof.
    intros Hk. induction n as [|n IH]; intros seen s Hp; cbn [w_play]; [cbn; auto|].
    destruct (k seen (snd s)) as [o|] eqn:Ho; [|cbn; auto].
    pose proof (w_step_safe (snd s) Hp (Hk _ _ _ Ho)) as G. rewrite <- surjective_pairing in G. unfold safe_wout in G.
    destruct (w_step c X s o) as [x s']. cbn [fst snd] in G.
    destruct x as [x| | |].
    - specialize (IH (seen ++ [MRes x]) s' G). destruct (w_play c X n k (seen ++ [MRes x]) s') as [rs s'']. cbn in *.
      destruct IH as [I1 I2]. split; [intros [Y|Y]; [discriminate|auto]|]. intros Hn. apply I2. intros Y. apply Hn. auto.
    - specialize (IH (seen ++ [MCap]) s' G). destruct (w_play c X n k (seen ++ [MCap]) s') as [rs s'']. cbn in *.
      destruct IH as [I1 I2]. split; [intros [Y|Y]; [discriminate|auto]|]. intros Hn. apply I2. intros Y. apply Hn. auto.
    - cbn. split; [intros [Y|[]]; discriminate|]. intros Hn. exfalso. apply Hn. auto.
    - contradiction.
  Qed.
  Lemma w_play_valid n k : tame_wclient c X k -> forall seen s, Forall (valid c E) (fst s) ->
    ~ In MUB (fst (w_play c X n k seen s)) /\
    (~ In MAbort (fst (w_play c X n k seen s)) -> Forall (valid c E) (fst (snd (w_play c X n k seen s)))).
  Proof.
    intros Hk seen s Hp. apply (any_Forall_valid Hc Hcomp Hai) in Hp. destruct (w_play_safe n Hk seen Hp) as [G1 G2].
    split; [exact G1|]. intros Hn. apply (any_Forall_valid Hc Hcomp Hai). exact (G2 Hn).
  Qed.
End UserFacts.
