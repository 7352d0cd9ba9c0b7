(** CapFacts.v -- proofs for PropCap.v: what each call does to the capacity. *)
From Verif Require Import MemFacts ClaimFacts.
From Verif Require Export Capacity.
Open Scope N_scope.
Set Implicit Arguments.

Lemma snd_let {A B C} (x : A * B) (f : A -> C) : snd (let '(a, b) := x in (f a, b)) = snd x.
Proof. destruct x; reflexivity. Qed.

(** m changes the state only in the way R allows, whatever its outcome *)
Definition keeps {S A} (R : S -> S -> Prop) (m : M S A) : Prop := forall s, R s (snd (m s)).
Section Keeps.
  Context {S : Type} (R : S -> S -> Prop) (Rr : forall s, R s s) (Rt : forall a b d, R a b -> R b d -> R a d).
  Lemma keeps_ret A (a : A) : keeps R (ret a). Proof. intros s. apply Rr. Qed.
  Lemma keeps_lift A (o : outcome A) : keeps R (lift o). Proof. intros s. apply Rr. Qed.
  Lemma keeps_reads A (g : S -> outcome A) : keeps R (reads g). Proof. intros s. apply Rr. Qed.
  Lemma keeps_bind A B (m : M S A) (f : A -> M S B) : keeps R m -> (forall a, keeps R (f a)) -> keeps R (bind m f).
  Proof.
    intros H1 H2 s. unfold bind. specialize (H1 s). destruct (m s) as [[a|k| |] s1]; cbn in *; try exact H1.
    exact (Rt H1 (H2 a s1)).
  Qed.
  Lemma keeps_for n : forall i (body : N -> M S unit), (forall j, keeps R (body j)) -> keeps R (for_range n i body).
  Proof. induction n as [|n IH]; intros i body H; cbn [for_range]; [apply keeps_ret|]. apply keeps_bind; [apply H|]. intros _. apply IH. exact H. Qed.
End Keeps.

Section Ev.
  Context {T : Type} (c : cfg) (E : enumlike T).
  Context (Rc : N -> N -> Prop) (Rr : forall a, Rc a a) (Rt : forall a b d, Rc a b -> Rc b d -> Rc a d).
  Definition Rv (v v' : ev) : Prop := Rc (vcap (storage v)) (vcap (storage v')).
  Lemma Rv_refl v : Rv v v. Proof. apply Rr. Qed.
  Lemma Rv_trans a b d : Rv a b -> Rv b d -> Rv a d. Proof. apply Rt. Qed.
  Local Notation k := (keeps Rv).
  Local Ltac kb := apply (keeps_bind Rv_trans); [|intros].
  Local Ltac k0 := first [apply (keeps_ret _ Rv_refl)|apply (keeps_lift _ Rv_refl)|apply (keeps_reads _ Rv_refl)].

  Lemma k_set_len n : k (set_len n). Proof. intros v. apply Rr. Qed.
  Lemma k_store_u w b : k (store_unchecked w b). Proof. intros v. unfold store_unchecked. destruct (_ <? _); apply Rr. Qed.
  Lemma k_store w b : k (store w b). Proof. intros v. unfold store. destruct (_ <? _); apply Rr. Qed.
  Lemma k_set_u i d : k (set_raw_unchecked c E i d).
 Proof. unfold set_raw_unchecked, block_index. kb; [k0|]. kb; [k0|]. kb; [apply k_store_u|]. kb; [k0|]. kb; [k0|]. apply k_store_u. Qed.
  Lemma k_set_raw i d : k (set_raw c E i d).
  Proof. intros v. unfold set_raw. destruct (_ <=? _); [apply Rr|apply k_set_u]. Qed.
  Lemma k_set i x : k (set c E i x). Proof. apply k_set_raw. Qed.
  Lemma k_truncate n : k (truncate n). Proof. intros v. unfold truncate. destruct (_ <? _); apply Rr. Qed.
  Lemma k_swap a b : k (swap c E a b). Proof. unfold swap. kb; [k0|]. kb; [k0|]. kb; apply k_set_raw. Qed.
  Lemma k_pop : k (pop c E).
  Proof.
    intros v. unfold pop. destruct (is_empty v); [apply Rr|].
    generalize v at 1 3. revert v. intros v0 v. revert v. change (k (i <- lift (usub c (num v0) 1) ;; x <- reads (fun v => let! r := get c E i v in unwrap r) ;;
       n1 <- reads (fun v => usub c (num v) 1) ;; set_len n1 ;;; ret (Some x))).
    kb; [k0|]. kb; [k0|]. kb; [k0|]. kb; [apply k_set_len|k0].
  Qed.
  Lemma k_swap_remove i : k (swap_remove c E i).
  Proof. unfold swap_remove. kb; [k0|]. kb; [apply k_swap|]. kb; [apply k_pop|k0]. Qed.
  Lemma k_insert_slow : forall n i d, k (insert_slow c E n i d).
  Proof. induction n as [|n IH]; intros i d; cbn; [k0|]. kb; [k0|]. kb; [apply k_set_u|apply IH]. Qed.
  Lemma k_insert_blocks : forall n i d, k (insert_blocks c E n i d).
  Proof. induction n as [|n IH]; intros i d; cbn; [k0|]. kb; [k0|]. kb; [k0|]. kb; [apply k_store|apply IH]. Qed.
  Lemma k_remove_slow : forall n i, k (remove_slow c E n i).
  Proof. induction n as [|n IH]; intros i; cbn; [k0|]. kb; [k0|]. kb; [apply k_set_u|apply IH]. Qed.
  Lemma k_remove_blocks : forall n i d, k (remove_blocks c E n i d).
  Proof. induction n as [|n IH]; intros i d; cbn [remove_blocks]; [k0|]. kb; [k0|]. kb; [k0|]. kb; [apply k_store|apply IH]. Qed.
  Lemma k_remove i : k (remove c E i).
  Proof.
    unfold remove. kb; [k0|]. kb; [k0|]. kb; [k0|]. kb; [apply k_remove_slow|]. kb; [k0|]. kb; [k0|]. kb; [k0|].
    kb; [apply k_set_len|]. kb; [k0|]. kb; [|k0]. destruct (_ <? _); [|k0]. kb; [k0|apply k_remove_blocks].
  Qed.
  Lemma k_retain St (f : St -> T -> option (bool * St)) st : k (retain c E f st).
  Proof.
    unfold retain. kb; [k0|]. kb.
    - generalize 0 at 1. generalize 0. revert st. induction (N.to_nat a) as [|n IH]; intros st i j; cbn; [k0|].
      kb; [k0|]. destruct (f st a0) as [[[] st']|]; [|apply IH|k0]. kb; [apply k_set|apply IH].
    - kb; [apply k_set_len|k0].
  Qed.
  Lemma k_for_each St (f : St -> T -> option (T * St)) st : k (for_each c E f st).
  Proof.
    unfold for_each. kb; [k0|]. generalize 0. revert st. induction (N.to_nat a) as [|n IH]; intros st i; cbn; [k0|].
    kb; [k0|]. destruct (f st a0) as [[y st']|]; [|k0]. kb; [apply k_set|apply IH].
  Qed.
  Lemma k_fix : k (fix_storage c E). Proof. intros v. apply Rr. Qed.

  (** ** calls that grow *)
  Context (Rg : forall cap need, cap < need -> Rc cap (grow c cap need)).
  Definition grows (f : rvec -> outcome rvec) : Prop := forall s s', f s = Ret s' -> Rc (vcap s) (vcap s').
  Lemma g_ensure n : grows (vec_ensure c n).
  Proof.
    intros s s'. unfold vec_ensure. destruct (N.leb_spec n (vcap s)) as [H|H]; [intros [= <-]; apply Rr|].
    destruct (_ <? _); [discriminate|]. destruct (_ <? _); [discriminate|]. intros [= <-]. cbn. apply Rg. exact H.
  Qed.
  Lemma g_then n (h : rvec -> rvec) s s' : (forall u, vcap (h u) = vcap u) -> (let! u := vec_ensure c n s in Ret (h u)) = Ret s' -> Rc (vcap s) (vcap s').
  Proof.
    intros Hh. destruct (vec_ensure c n s) as [u|q| |] eqn:G; cbn; try discriminate. intros [= <-]. rewrite Hh. exact (@g_ensure n s u G).
  Qed.
  Lemma g_push x : grows (vec_push c x).
  Proof. intros s s'. unfold vec_push. apply (@g_then _ (fun u => mkRvec (data u ++ [x]) (vcap u))). reflexivity. Qed.
  Lemma g_resize n x : grows (vec_resize c n x).
  Proof.
    intros s s'. unfold vec_resize. destruct (_ <=? _); [intros [= <-]; apply Rr|].
    apply (@g_then _ (fun u => mkRvec (data u ++ repeat x (N.to_nat (n - vlen s))) (vcap u))). reflexivity.
  Qed.
  Lemma g_reserve n : grows (vec_reserve c n). Proof. intros s s'. apply g_ensure. Qed.
  Lemma g_extend l : grows (vec_extend_from c l).
  Proof. intros s s'. unfold vec_extend_from. apply (@g_then _ (fun u => mkRvec (data u ++ l) (vcap u))). reflexivity. Qed.
  Lemma k_on f : grows f -> k (on_storage f).
  Proof. intros H v. unfold on_storage. specialize (H (storage v)). destruct (f (storage v)) as [s|q| |]; cbn; try apply Rr. apply H. reflexivity. Qed.

  Lemma k_reserve n : k (reserve c E n). Proof. unfold reserve. kb; [k0|]. kb; [k0|]. kb; [k0|]. apply k_on, g_resize. Qed.
  Lemma k_grow : k (grow_if_needed c E). Proof. intros v. unfold grow_if_needed. destruct (_ && _); [|apply Rr]. apply k_on, g_push. Qed.
  Lemma k_push x : k (push c E x). Proof. unfold push. kb; [apply k_grow|]. kb; [k0|]. kb; [k0|]. kb; [apply k_set_len|apply k_set]. Qed.
  Lemma k_insert i x : k (insert c E i x).
  Proof.
    unfold insert. kb; [apply k_push|]. kb; [k0|]. kb.
    - destruct (_ <? _); [|k0]. kb; [k0|]. kb; [k0|]. apply k_insert_slow.
    - kb; [k0|]. destruct (_ <? _); [|k0]. kb; [k0|]. apply k_insert_blocks.
  Qed.
  Lemma k_known : forall n i sl pan l, k (extend_known c E n i sl pan l).
  Proof. induction n as [|n IH]; intros i sl pan l; cbn [extend_known]; [k0|]. kb; [k0|]. destruct l as [|x l]; [k0|]. kb; [apply k_set|apply IH]. Qed.
  Lemma k_rest pan l : k (extend_rest c E pan l).
  Proof. induction l as [|x l IH]; cbn [extend_rest]; [destruct pan; k0|]. kb; [apply k_push|apply IH]. Qed.
  Lemma k_extend it : k (extend c E it).
  Proof. unfold extend. kb; [k0|]. kb; [apply k_reserve|]. kb; [k0|]. kb; [apply k_set_len|]. kb; [apply k_known|apply k_rest]. Qed.
  Lemma k_fill n b : k (fill_blocks c n b).
  Proof. unfold fill_blocks. apply (keeps_for Rv_refl Rv_trans). intros j. kb; [k0|]. kb; [k0|]. apply k_on, g_resize. Qed.
  Lemma k_extend_value x n : k (extend_with_value c E x n).
  Proof.
    unfold extend_with_value. destruct (_ <=? _); [apply k_extend|].
    kb; [k0|]. kb; [apply k_extend|]. kb; [k0|]. kb; [k0|]. kb; [k0|]. kb; [k0|]. kb; [k0|]. kb; [k0|].
    kb; [apply k_fix|]. kb; [apply k_on, g_reserve|]. kb; [apply k_fill|]. kb; [k0|]. kb; [k0|]. kb; [apply k_set_len|apply k_extend].
  Qed.
  Lemma k_resize n x : k (resize c E n x).
  Proof. unfold resize. kb; [k0|]. destruct (_ <? _); [kb; [k0|apply k_extend_value]|apply k_truncate]. Qed.
  Lemma k_split_off i : k (split_off c E i).
  Proof.
    intros v. unfold split_off. destruct (_ <=? _); [|apply Rr].
    assert (H : forall u, k (other_len <- reads (fun v => usub c (len v) i) ;;
       other0 <- lift (with_capacity c E other_len) ;;
       let '(o, other) :=
         (set_len other_len ;;;
          for_range (N.to_nat other_len) 0 (fun j =>
            idx <- lift (uadd c i j) ;;
            d <- lift (get_raw_unchecked c E idx u) ;;
            set_raw_unchecked c E j d)) other0 in
       lift o ;;; set_len i ;;; ret other)).
    { intros u. kb; [k0|]. kb; [k0|]. match goal with |- keeps _ (let '(_, _) := ?m in _) => destruct m as [o w] end. kb; [k0|]. kb; [apply k_set_len|k0]. }
    exact (H v v).
  Qed.
End Ev.

(** ** append: both vectors *)
Section Append.
  Context {T : Type} (c : cfg) (E : enumlike T).
  Context (Rc : N -> N -> Prop) (Rr : forall a, Rc a a) (Rt : forall a b d, Rc a b -> Rc b d -> Rc a d)
          (Rg : forall cap need, cap < need -> Rc cap (grow c cap need)).
  Local Notation Rv := (Rv Rc).
  Definition R2 (s s' : ev * ev) : Prop := Rv (fst s) (fst s') /\ vcap (storage (snd s')) = vcap (storage (snd s)).
  Lemma R2_refl s : R2 s s. Proof. split; [apply Rr|reflexivity]. Qed.
  Lemma R2_trans a b d : R2 a b -> R2 b d -> R2 a d.
  Proof. intros [H1 H2] [H3 H4]. split; [exact (Rt H1 H3)|congruence]. Qed.
  Local Ltac kb := apply (keeps_bind R2_trans); [|intros].
  Local Ltac k0 := first [apply (keeps_ret _ R2_refl)|apply (keeps_lift _ R2_refl)|apply (keeps_reads _ R2_refl)].
  Lemma k_fst A (m : M ev A) : keeps Rv m -> keeps R2 (on_fst m).
  Proof. intros H s. unfold on_fst. specialize (H (fst s)). destruct (m (fst s)). split; [exact H|reflexivity]. Qed.
  Lemma k_snd A (m : M ev A) : keeps (CapFacts.Rv (fun a b => b = a)) m -> keeps R2 (on_snd m).
  Proof. intros H s. unfold on_snd. specialize (H (snd s)). destruct (m (snd s)). split; [apply Rr|exact H]. Qed.
  Lemma k_append : keeps R2 (append c E).
  Proof.
    unfold append. kb; [k0|]. kb; [k0|]. destruct (_ =? _).
    - kb; [apply k_fst, k_fix, Rr|]. kb; [apply k_snd, k_fix; reflexivity|]. kb; [k0|]. kb; [apply k_fst, k_on, g_extend; assumption|].
      kb; [destruct (small c); apply k_snd; [apply k_truncate; reflexivity|intros v; reflexivity]|]. kb; [k0|]. apply k_fst, k_set_len, Rr.
    - kb; [apply k_fst, k_reserve; assumption|]. kb; [k0|]. kb; [apply k_fst, k_set_len, Rr|].
      kb; [|apply k_snd, k_truncate; reflexivity]. apply (keeps_for R2_refl R2_trans). intros j. kb; [k0|]. kb; [k0|]. apply k_fst, k_set_u; assumption.
  Qed.
End Append.

(** ** one call on a pool *)
Lemma nth_upd_eq A (p : list A) r x : (r < length p)%nat -> nth_error (upd p r x) r = Some x.
Proof. revert r. induction p as [|y p IH]; intros [|r] H; cbn in *; try lia; [reflexivity|apply IH; lia]. Qed.
Lemma nth_upd_neq A (p : list A) r r' x : r' <> r -> nth_error (upd p r x) r' = nth_error p r'.
Proof. revert r r'. induction p as [|y p IH]; intros [|r] [|r'] H; cbn; try reflexivity; try congruence. apply IH. congruence. Qed.
Lemma upd_length' A (p : list A) r x : length (upd p r x) = length p.
Proof. revert r. induction p as [|y p IH]; intros [|r]; cbn; try reflexivity. f_equal. apply IH. Qed.

Section Step.
  Context {T : Type} (c : cfg) (E : enumlike T).
  Section Rel.
  Context (Rc : N -> N -> Prop) (Rr : forall a, Rc a a) (Rt : forall a b d, Rc a b -> Rc b d -> Rc a d).
  Local Notation Rv := (Rv Rc).
  Definition Rp (p p' : list ev) : Prop := forall r, (r < length p)%nat -> (r < length p')%nat /\ Rc (blocks_of p r) (blocks_of p' r).
  Lemma Rp_refl p : Rp p p. Proof. intros r H. split; [exact H|apply Rr]. Qed.
  Lemma Rp_trans p q s : Rp p q -> Rp q s -> Rp p s.
  Proof. intros H1 H2 r H. destruct (H1 r H) as [H3 H4]. destruct (H2 r H3) as [H5 H6]. split; [exact H5|exact (Rt H4 H6)]. Qed.
  Lemma Rp_app p q : Rp p (p ++ q).
  Proof. intros r H. rewrite app_length. split; [lia|]. unfold blocks_of. rewrite nth_error_app1 by exact H. apply Rr. Qed.
  Lemma Rp_upd p r v v' : nth_error p r = Some v -> Rv v v' -> Rp p (upd p r v').
  Proof.
    intros Hn HR r' H. rewrite upd_length'. split; [exact H|]. unfold blocks_of. destruct (Nat.eq_dec r' r) as [->|Hne].
    - rewrite nth_upd_eq by exact H. rewrite Hn. exact HR.
    - rewrite nth_upd_neq by exact Hne. apply Rr.
  Qed.
  Lemma Rp_on A p r (m : M ev A) (q : A -> res T) : keeps Rv m -> Rp p (snd (m_on p r m q)).
  Proof.
    intros H. unfold m_on. destruct (nth_error p r) as [v|] eqn:G; [|apply Rp_refl]. specialize (H v). destruct (m v) as [o v'].
    exact (Rp_upd _ _ G H).
  Qed.
  Lemma Rp_read A p r (f : ev -> outcome A) (q : A -> res T) : Rp p (snd (m_read p r f q)).
  Proof. unfold m_read. destruct (nth_error p r); apply Rp_refl. Qed.
  Lemma Rp_new p o : Rp p (snd (m_new (T := T) p o)).
  Proof. destruct o; try apply Rp_refl. apply Rp_app. Qed.

  Context (Rg : forall cap need, cap < need -> Rc cap (grow c cap need)).
  Lemma Rp_step p o : (forall r, o <> OShrink r) -> Rp p (snd (m_step c E p o)).
  Proof.
    intros Hs. destruct o; cbn [m_step];
      try (apply Rp_new); try (apply Rp_read); try (apply Rp_on; first [apply k_push|apply k_pop|apply k_insert|apply k_remove|apply k_swap|apply k_swap_remove|
        apply k_truncate|apply k_resize|apply k_set|apply k_reserve|apply k_extend|apply k_retain|apply k_for_each]; assumption).
    - destruct (nth_error p r); [apply Rp_new|apply Rp_refl].
    - destruct (Hs r eq_refl).
    - destruct (nth_error p r) as [v|] eqn:G1; [|apply Rp_refl]. destruct (nth_error p r2) as [w|] eqn:G2; [|apply Rp_refl].
      destruct (Nat.eqb_spec r r2) as [|Hne]; [apply Rp_refl|].
      destruct (@k_append T c E Rc Rr Rt Rg (v, w)) as [H1 H2]. destruct (append c E (v, w)) as [o s]. cbn [fst snd] in *.
      refine (Rp_trans (q := upd p r (fst s)) _ _); [exact (Rp_upd _ _ G1 H1)|]. eapply Rp_upd; [rewrite nth_upd_neq by congruence; exact G2|].
      unfold CapFacts.Rv. rewrite H2. apply Rr.
    - destruct (nth_error p r) as [v|] eqn:G; [|apply Rp_refl].
      pose proof (@k_split_off T c E Rc Rr Rt at_ v) as H. destruct (split_off c E at_ v) as [o v']. cbn in H. pose proof (Rp_upd _ _ G H) as H1.
      destruct o; try exact H1. exact (Rp_trans H1 (Rp_app _ _)).
    - destruct (nth_error p r) as [v|] eqn:G1; [|apply Rp_refl]. destruct (nth_error p r2) as [w|] eqn:G2; apply Rp_refl.
  Qed.
  Lemma step_r p o r : (r < length p)%nat -> shrinks r o = false ->
    (r < length (snd (m_step c E p o)))%nat /\ Rc (blocks_of p r) (blocks_of (snd (m_step c E p o)) r).
  Proof.
    intros Hr Hs. destruct o as [ | | | | | | | | | | | | | | | | | |r'| | | | | | | | | | | | | ];
      try (apply Rp_step; [intros ?; discriminate|exact Hr]).
    cbn [m_step m_on]. unfold m_on. destruct (nth_error p r') as [v|] eqn:G; [|split; [exact Hr|apply Rr]].
    destruct (shrink_to_fit c E v) as [o v']. cbn [snd]. cbn in Hs. apply Nat.eqb_neq in Hs.
    rewrite upd_length'. split; [exact Hr|]. unfold blocks_of. rewrite nth_upd_neq by congruence. apply Rr.
  Qed.
  End Rel.

  (** in-place calls *)
  Lemma step_in_place p o : in_place o = true -> map (fun v => vcap (storage v)) (snd (m_step c E p o)) = map (fun v => vcap (storage v)) p.
  Proof.
    assert (U : forall p r v v', nth_error p r = Some v -> vcap (storage v') = vcap (storage v) ->
      map (fun v => vcap (storage v)) (upd p r v') = map (fun v => vcap (storage v)) p).
    { clear. induction p as [|x p IH]; intros [|r] v v' H1 H2; cbn in *; try discriminate; [congruence|]. f_equal. exact (IH _ _ _ H1 H2). }
    assert (O : forall A r (m : M ev A) (q : A -> res T), keeps (Rv (fun a b => b = a)) m ->
      map (fun v => vcap (storage v)) (snd (m_on p r m q)) = map (fun v => vcap (storage v)) p).
    { intros A r m q H. unfold m_on. destruct (nth_error p r) as [v|] eqn:G; [|reflexivity]. specialize (H v). destruct (m v) as [x v']. exact (U _ _ _ _ G H). }
    assert (D : forall A r (f : ev -> outcome A) (q : A -> res T),
      map (fun v => vcap (storage v)) (snd (m_read p r f q)) = map (fun v => vcap (storage v)) p).
    { intros. unfold m_read. destruct (nth_error p r); reflexivity. }
    assert (Q1 : forall a : N, a = a) by reflexivity. assert (Q2 : forall a b d : N, b = a -> d = b -> d = a) by congruence.
    destruct o; try discriminate; intros _; cbn [m_step]; try apply D;
      try (apply O; first [apply k_pop|apply k_remove|apply k_swap|apply k_swap_remove|apply k_truncate|apply k_set|apply k_retain|apply k_for_each]; assumption).
    destruct (nth_error p r); [|reflexivity]. destruct (nth_error p r2); reflexivity.
  Qed.
End Step.

(** ** programs *)
Section Run.
  Context {T : Type} (c : cfg) (E : enumlike T) (Hc : cfg_ok c).
  Local Notation P := (EPB c E).
  Definition ge (a b : N) : Prop := a <= b.
  Definition dbl (a b : N) : Prop := b = a \/ (a < b /\ 2 * a <= b).

  Lemma ge_grow cap need : cap < need -> cap <= grow c cap need.
  Proof. intros H. pose proof (ok_grow Hc H). lia. Qed.
  Lemma step_kept p o r : (r < length p)%nat -> shrinks r o = false ->
    (r < length (snd (m_step c E p o)))%nat /\ blocks_of p r <= blocks_of (snd (m_step c E p o)) r.
  Proof. apply (@step_r T c E N.le); [intros; lia|intros; lia|exact ge_grow]. Qed.
  Lemma step_dbl p o r : doubling c -> (r < length p)%nat -> shrinks r o = false ->
    (r < length (snd (m_step c E p o)))%nat /\ dbl (blocks_of p r) (blocks_of (snd (m_step c E p o)) r).
  Proof.
    intros Hd. apply (@step_r T c E dbl); unfold dbl; [intros; left; reflexivity|intros; lia|].
    intros cap need H. right. pose proof (ok_grow Hc H). pose proof (Hd cap need H). lia.
  Qed.
  Lemma run_kept r : forall prog p, (r < length p)%nat -> forallb (fun o => negb (shrinks r o)) prog = true ->
    (r < length (snd (m_run c E p prog)))%nat /\ blocks_of p r <= blocks_of (snd (m_run c E p prog)) r.
  Proof.
    induction prog as [|o prog IH]; intros p Hr Hs; cbn [m_run]; [split; [exact Hr|apply N.le_refl]|].
    cbn in Hs. apply andb_true_iff in Hs. destruct Hs as [H1 H2]. apply negb_true_iff in H1. destruct (step_kept _ _ Hr H1) as [H3 H4].
    destruct (m_step c E p o) as [res p'] eqn:G. cbn [snd] in *. specialize (IH p' H3 H2).
    destruct (m_run c E p' prog) as [rs p'']. cbn [snd] in *. destruct IH as [IH1 IH2].
    destruct res; cbn [snd]; split; first [assumption|lia].
  Qed.
  Lemma pow2_pos n : 1 <= 2 ^ n. Proof. pose proof (N.pow_nonzero 2 n). lia. Qed.
  Lemma run_moves (Hd : doubling c) r : forall prog p, (r < length p)%nat -> forallb (fun o => negb (shrinks r o)) prog = true ->
    2 ^ moves c E r p prog * blocks_of p r <= blocks_of (snd (m_run c E p prog)) r /\
    2 ^ moves c E r p prog <= 2 * N.max 1 (blocks_of (snd (m_run c E p prog)) r).
  Proof.
    induction prog as [|o prog IH]; intros p Hr Hs; [cbn [moves m_run snd]; change (2 ^ 0) with 1; lia|].
    cbn [forallb] in Hs. apply andb_true_iff in Hs. destruct Hs as [H1 H2]. apply negb_true_iff in H1. destruct (step_dbl _ _ Hd Hr H1) as [H3 H4].
    cbn [m_run moves].
    destruct (m_step c E p o) as [res p'] eqn:G. cbn [snd] in *. specialize (IH p' H3 H2). pose proof (run_kept _ _ H3 H2) as [_ HK].
    set (mv := moves c E r p' prog) in *.
    destruct (m_run c E p' prog) as [rs p'']. cbn [snd] in *. destruct IH as [IH1 IH2].
    remember (blocks_of p r) as b. remember (blocks_of p' r) as b1 eqn:Q1. remember (blocks_of p'' r) as b2 eqn:Q2. clearbody mv.
    assert (K : 2 ^ ((if b1 =? b then 0 else 1) + 0) * b <= b1 /\ 2 ^ ((if b1 =? b then 0 else 1) + 0) <= 2 * N.max 1 b1).
    { destruct (N.eqb_spec b1 b) as [->|Hne]; cbn [N.add]; [change (2 ^ 0) with 1; lia|]. change (2 ^ 1) with 2. destruct H4 as [H4|H4]; [congruence|lia]. }
    assert (L : 2 ^ ((if b1 =? b then 0 else 1) + mv) * b <= b2 /\ 2 ^ ((if b1 =? b then 0 else 1) + mv) <= 2 * N.max 1 b2).
    { destruct (N.eqb_spec b1 b) as [->|Hne]; [cbn [N.add]; split; assumption|]. destruct H4 as [H4|H4]; [congruence|].
      rewrite N.pow_add_r. change (2 ^ 1) with 2. pose proof (pow2_pos mv). split; [nia|].
      assert (1 <= b1) by lia. nia. }
    destruct res; cbn [snd]; rewrite <- ?Q1, <- ?Q2; first [exact L|exact K].
  Qed.

  (** ** pushing one by one *)
  Context (Hcomp : admits c E).
  Definition lean (v : ev) : Prop := vlen (storage v) <= len v / P + 1 /\ vlen (storage v) <= vcap (storage v) /\ vcap (storage v) <= N.max 8 (2 * vlen (storage v)).
  (** what one push does to the amount of storage *)
  Definition pushed (v v' : ev) : Prop := lean v' /\ len v <= len v' /\ len v' <= len v + 1 /\ dbl (vcap (storage v)) (vcap (storage v')).
  Lemma set_u_shape i d v : vlen (storage (snd (set_raw_unchecked c E i d v))) = vlen (storage v) /\
    vcap (storage (snd (set_raw_unchecked c E i d v))) = vcap (storage v) /\ num (snd (set_raw_unchecked c E i d v)) = num v.
  Proof.
    set (R := fun v v' : ev => vlen (storage v') = vlen (storage v) /\ vcap (storage v') = vcap (storage v) /\ num v' = num v).
    assert (Rr : forall v, R v v) by (intros; repeat split). assert (Rt : forall a b d, R a b -> R b d -> R a d) by (unfold R; intuition congruence).
    assert (St : forall w b, keeps R (store_unchecked w b)).
    { intros w b u. unfold store_unchecked. destruct (_ <? _); [|apply Rr]. unfold R, vlen, lenN, updN. cbn. rewrite upd_length'. repeat split. }
    assert (H : keeps R (set_raw_unchecked c E i d)); [|exact (H v)].
    unfold set_raw_unchecked, block_index. apply (keeps_bind Rt); [apply (keeps_reads _ Rr)|intros]. apply (keeps_bind Rt); [apply (keeps_lift _ Rr)|intros].
    apply (keeps_bind Rt); [apply St|intros]. apply (keeps_bind Rt); [apply (keeps_reads _ Rr)|intros]. apply (keeps_bind Rt); [apply (keeps_lift _ Rr)|intros]. apply St.
  Qed.
  Lemma set_shape i x v : vlen (storage (snd (set c E i x v))) = vlen (storage v) /\
    vcap (storage (snd (set c E i x v))) = vcap (storage v) /\ num (snd (set c E i x v)) = num v.
  Proof. unfold set, set_raw. destruct (_ <=? _); [repeat split|apply set_u_shape]. Qed.
  Lemma grow_lean (Hd : doubling c) (Hf : frugal c) v : lean v ->
    lean (snd (grow_if_needed c E v)) /\ len (snd (grow_if_needed c E v)) = len v /\ dbl (vcap (storage v)) (vcap (storage (snd (grow_if_needed c E v)))).
  Proof.
    pose proof (EPB_pos Hc (proj1 Hcomp)) as HP.
    intros (H1 & H2 & H3). unfold grow_if_needed. destruct (_ && _) eqn:G; [|split; [exact (conj H1 (conj H2 H3))|split; [reflexivity|left; reflexivity]]].
    apply andb_true_iff in G. destruct G as [G1 G2]. apply N.eqb_eq in G1, G2.
    unfold on_storage, vec_push, vec_ensure. destruct (N.leb_spec (vlen (storage v) + 1) (vcap (storage v))) as [Hl|Hl]; cbn [obind].
    - assert (E1 : vlen (mkRvec (data (storage v) ++ [0]) (vcap (storage v))) = vlen (storage v) + 1) by (unfold vlen, lenN; cbn; rewrite app_length; cbn; lia).
      split; [|split; [reflexivity|left; reflexivity]]. unfold lean. cbn [snd storage len num]. rewrite E1. cbn [vcap].
      assert (vlen (storage v) <= len v / P).
      { rewrite <- G2. unfold blocks_for_elements. transitivity ((len v + (P - 1)) / P); [apply N.div_le_mono; lia|].
        pose proof (N.div_mod' (len v) P) as Q. rewrite G1, N.add_0_r in Q. rewrite Q at 1. rewrite N.add_comm, N.mul_comm, N.div_add by lia.
        rewrite N.div_small by lia. lia. }
      unfold len in *. lia.
    - assert (A : lean v /\ len v = len v /\ dbl (vcap (storage v)) (vcap (storage v))) by (split; [exact (conj H1 (conj H2 H3))|split; [reflexivity|left; reflexivity]]).
      destruct (_ <? _); [exact A|]. destruct (_ <? _); [exact A|]. cbn [obind data vcap snd storage].
      assert (E1 : vlen (mkRvec (data (storage v) ++ [0]) (grow c (vcap (storage v)) (vlen (storage v) + 1))) = vlen (storage v) + 1) by (unfold vlen, lenN; cbn; rewrite app_length; cbn; lia).
      assert (vlen (storage v) <= len v / P).
      { rewrite <- G2. unfold blocks_for_elements. transitivity ((len v + (P - 1)) / P); [apply N.div_le_mono; lia|].
        pose proof (N.div_mod' (len v) P) as Q. rewrite G1, N.add_0_r in Q. rewrite Q at 1. rewrite N.add_comm, N.mul_comm, N.div_add by lia.
        rewrite N.div_small by lia. lia. }
      pose proof (ok_grow Hc Hl). pose proof (Hd _ _ Hl). pose proof (Hf _ _ Hl). unfold lean, dbl. cbn [storage len num]. rewrite E1. cbn [vcap].
      unfold len in *. cbn [num]. lia.
  Qed.
  Lemma push_lean (Hd : doubling c) (Hf : frugal c) x v : lean v -> pushed v (snd (push c E x v)).
  Proof.
    intros H. destruct (grow_lean Hd Hf H) as (H1 & H2 & H3). unfold push, bind.
    destruct (grow_if_needed c E v) as [[u|q| |] v1]; cbn [snd] in *; try (split; [exact H1|]; split; [lia|split; [lia|exact H3]]).
    unfold reads, lift. destruct (_ <=? _) ; [|split; [exact H1|]; cbn [snd]; split; [lia|split; [lia|exact H3]]].
    unfold set_len. destruct (set_shape (num v1) x (mkEv (storage v1) (num v1 + 1))) as (S1 & S2 & S3).
    unfold pushed, lean, len in *. cbn [storage num] in *. rewrite S1, S2, S3. pose proof (EPB_pos Hc (proj1 Hcomp)) as HP.
    assert (num v1 / P <= (num v1 + 1) / P) by (apply N.div_le_mono; lia). destruct H1 as (? & ? & ?). split; [lia|]. split; [lia|]. split; [lia|exact H3].
  Qed.
  Lemma lean_new : lean (ev_new c). Proof. unfold lean, ev_new, vec_new, vlen, len. cbn. destruct (small c); lia. Qed.

  Lemma pushes (Hd : doubling c) (Hf : frugal c) r xs : forall p v, nth_error p r = Some v -> lean v ->
    exists v', nth_error (snd (m_run c E p (map (OPush r) xs))) r = Some v' /\ lean v' /\ len v' <= len v + lenN xs /\
      copied c E r p (map (OPush r) xs) + vcap (storage v) <= vcap (storage v').
  Proof.
    induction xs as [|x xs IH]; intros p v Hn Hv.
    { exists v. cbn. split; [exact Hn|]. split; [exact Hv|]. unfold lenN. cbn. lia. }
    cbn [map m_run copied m_step]. unfold m_on. rewrite Hn. pose proof (push_lean Hd Hf x Hv) as (H1 & H2 & H3 & H4).
    destruct (push c E x v) as [o v1]. cbn [snd] in *. assert (Hr : (r < length p)%nat) by (apply nth_error_Some; congruence).
    assert (B : nth_error (upd p r v1) r = Some v1) by (apply nth_upd_eq; exact Hr).
    assert (B1 : blocks_of (upd p r v1) r = vcap (storage v1)) by (unfold blocks_of; rewrite B; reflexivity).
    assert (B0 : blocks_of p r = vcap (storage v)) by (unfold blocks_of; rewrite Hn; reflexivity). rewrite B0, B1.
    assert (K : (if vcap (storage v1) =? vcap (storage v) then 0 else vlen (storage v)) + vcap (storage v) <= vcap (storage v1)).
    { destruct Hv as (_ & Hv & _). destruct (N.eqb_spec (vcap (storage v1)) (vcap (storage v))) as [G|G]; [lia|]. destruct H4 as [H4|H4]; [congruence|lia]. }
    assert (E1 : lenN (x :: xs) = lenN xs + 1) by (unfold lenN; cbn; lia). rewrite E1.
    assert (S : exists v', nth_error (upd p r v1) r = Some v' /\ lean v' /\ len v' <= len v + (lenN xs + 1) /\
      (if vcap (storage v1) =? vcap (storage v) then 0 else vlen (storage v)) + 0 + vcap (storage v) <= vcap (storage v')).
    { exists v1. split; [exact B|]. split; [exact H1|]. split; [lia|]. rewrite N.add_0_r. exact K. }
    destruct (IH _ _ B H1) as (v' & I1 & I2 & I3 & I4).
    destruct (of_outcome (fun _ => RUnit) o) eqn:G; destruct (m_run c E (upd p r v1) (map (OPush r) xs)) as [rs p'']; cbn [snd] in *; try exact S;
      exists v'; (split; [exact I1|]); (split; [exact I2|]); lia.
  Qed.
End Run.
