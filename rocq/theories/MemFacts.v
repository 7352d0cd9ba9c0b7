(** MemFacts.v -- calls fail for lack of memory only when they ask for too much. *)
From Verif Require Export Memory ProgFacts.
From Coq Require Import ZifyBool ZifyNat ZifyN.
Open Scope N_scope.
Set Implicit Arguments.
Unset Strict Implicit.

(** no resource failure *)
Definition fed {A} (o : outcome A) : Prop :=
  match o with
  | Panic PCapacity | Panic PExpect | Abort => False
  | _ => True
  end.
Lemma fed_bind A B (o : outcome A) (f : A -> outcome B) : fed o -> (forall a, fed (f a)) -> fed (obind o f).
Proof. destruct o as [a|[]| |]; cbn; auto. Qed.
(** from a state with property Q, m does not fail for lack of memory and preserves Q; moreover it preserves I *)
Definition fits {S A} (Q I : S -> Prop) (m : M S A) (s : S) : Prop :=
  Q s -> fed (fst (m s)) /\ Q (snd (m s)) /\ (I s -> I (snd (m s))).
Lemma fits_bind S A B (Q I : S -> Prop) (m : M S A) (f : A -> M S B) s :
  fits Q I m s -> (forall a s', m s = (Ret a, s') -> fits Q I (f a) s') -> fits Q I (bind m f) s.
Proof.
  intros H Hf HQ. destruct (H HQ) as (H1 & H2 & H3). unfold bind. destruct (m s) as [[a|k| |] s'] eqn:Em; cbn in *.
  - destruct (Hf a s' eq_refl H2) as (G1 & G2 & G3). split; [exact G1|]. split; [exact G2|auto].
  - split; [destruct k; auto|auto].
  - contradiction.
  - auto.
Qed.
Lemma fits_lift S A (Q I : S -> Prop) (o : outcome A) s : fed o -> fits Q I (lift o) s.
Proof. intros H HQ. split; [exact H|]. split; [exact HQ|auto]. Qed.
Lemma fits_ret S A (Q I : S -> Prop) (a : A) s : fits Q I (ret a) s.
Proof. intros HQ. split; [exact Logic.I|]. split; [exact HQ|auto]. Qed.
Lemma fits_reads S A (Q I : S -> Prop) (g : S -> outcome A) s : fed (g s) -> fits Q I (reads g) s.
Proof. intros H HQ. split; [exact H|]. split; [exact HQ|auto]. Qed.
(** never fails, from any state *)
Definition tame {S A} (Q I : S -> Prop) (m : M S A) : Prop := forall s, fits Q I m s.
Lemma tame_bind S A B (Q I : S -> Prop) (m : M S A) (f : A -> M S B) : tame Q I m -> (forall a, tame Q I (f a)) -> tame Q I (bind m f).
Proof. intros H1 H2 s. apply fits_bind; [apply H1|]. intros a s' _. apply H2. Qed.
Lemma tame_for S (Q I : S -> Prop) n : forall i (body : N -> M S unit), (forall j, tame Q I (body j)) -> tame Q I (for_range n i body).
Proof.
  induction n as [|n IH]; intros i body H; cbn [for_range]; [intros s; apply fits_ret|]. apply tame_bind; [apply H|]. intros _. apply IH. exact H.
Qed.

Definition small_st (n : N) (v : ev) : Prop := vlen (storage v) <= n.
(** the capacity of v is one of those considered *)
Definition capok (room : N -> Prop) (v : ev) : Prop := room (vcap (storage v)).

Lemma firstn_lenN_le A k (l : list A) : lenN (firstn k l) <= lenN l.
Proof. unfold lenN. rewrite firstn_length. lia. Qed.

Section Fed.
  Context {T : Type} (c : cfg) (E : enumlike T).
  Lemma fed_uadd a b : fed (uadd c a b). Proof. unfold uadd. destruct (_ <=? _); [exact I|]. destruct (ovf c); exact I. Qed.
  Lemma fed_usub a b : fed (usub c a b). Proof. unfold usub. destruct (_ <=? _); [exact I|]. destruct (ovf c); exact I. Qed.
  Lemma fed_umul a b : fed (umul c a b). Proof. unfold umul. destruct (_ <=? _); [exact I|]. destruct (ovf c); exact I. Qed.
  Lemma fed_shl a b : fed (shl c a b). Proof. unfold shl. destruct (_ <? _); [exact I|]. destruct (ovf c); exact I. Qed.
  Lemma fed_shr a b : fed (shr c a b). Proof. unfold shr. destruct (_ <? _); [exact I|]. destruct (ovf c); exact I. Qed.
  Lemma fed_bmul a b : fed (bmul c a b). Proof. unfold bmul. destruct (_ <? _); [exact I|]. destruct (ovf c); exact I. Qed.
  Lemma fed_load_u w v : fed (load_unchecked w v). Proof. unfold load_unchecked. destruct (nthN _ _); exact I. Qed.
  Lemma fed_load w v : fed (load w v). Proof. unfold load. destruct (nthN _ _); exact I. Qed.
  Lemma fed_unwrap A (o : option A) : fed (unwrap o). Proof. destruct o; exact I. Qed.
  Lemma fed_from d : fed (from_discr E d). Proof. unfold from_discr. destruct (from_d E d); exact I. Qed.
  Lemma fed_raw i v : fed (get_raw_unchecked c E i v).
  Proof.
    unfold get_raw_unchecked. destruct (block_index c E i) as [w b]. apply fed_bind; [apply fed_load_u|]. intros a.
    apply fed_bind; [apply fed_shr|]. intros; exact I.
  Qed.
  Lemma fed_get_raw i v : fed (get_raw c E i v).
  Proof. unfold get_raw. destruct (_ <=? _); [exact I|]. apply fed_bind; [apply fed_raw|intros; exact I]. Qed.
  Lemma fed_get i v : fed (get c E i v).
  Proof.
    unfold get. apply fed_bind; [apply fed_get_raw|]. intros [d|]; [|exact I]. apply fed_bind; [apply fed_from|intros; exact I].
  Qed.
  Lemma fed_item v o : fed (iter_item c E v o).
  Proof.
    destruct o as [i|]; [|exact I]. cbn. apply fed_bind; [apply fed_get|]. intros r. apply fed_bind; [apply fed_unwrap|intros; exact I].
  Qed.
  Lemma fed_collect v : forall f r, fed (iter_collect c E v f r).
  Proof.
    assert (N : forall r, fed (fst (iter_next c E v r))).
    { intros r. unfold iter_next. destruct (range_next r) as [o r']. apply fed_item. }
    induction f as [|f IH]; intros r; cbn; pose proof (N r) as H; destruct (iter_next c E v r) as [[[x|]|[]| |] r']; try exact I; try exact H.
    apply fed_bind; [apply IH|intros; exact I].
  Qed.
  Lemma fed_m_iter v : forall calls r, fed (m_iter c E v r calls).
  Proof.
    induction calls as [|ca calls IH]; intros r; [exact I|]. cbn [m_iter].
    assert (K : forall (o : outcome (ires T)) r', fed o -> fed (let! x := o in let! l := m_iter c E v r' calls in Ret (x :: l))).
    { intros o r' Ho. apply fed_bind; [exact Ho|]. intros x. apply fed_bind; [apply IH|intros; exact I]. }
    destruct ca.
    - unfold iter_next. destruct (range_next r) as [o r']. cbn. apply K. apply fed_bind; [apply fed_item|intros; exact I].
    - unfold iter_next_back. destruct (range_next_back r) as [o r']. cbn. apply K. apply fed_bind; [apply fed_item|intros; exact I].
    - unfold iter_nth. destruct (range_nth n r) as [o r']. cbn. apply K. apply fed_bind; [apply fed_item|intros; exact I].
    - apply K. exact I.
    - apply K. exact I.
  Qed.
  Lemma fed_x_mask x : fed (x_mask c E x).
  Proof. unfold x_mask, one_mask. apply fed_bind; [apply fed_shr|]. intros. apply fed_bmul. Qed.
  Lemma fed_any_loop v one high xm : forall n i, fed (any_loop c n i one high xm v).
  Proof.
    induction n as [|n IH]; intros i; [exact I|]. cbn. apply fed_bind; [apply fed_load|]. intros b. destruct (haszero _ _ _ _); [exact I|apply IH].
  Qed.
  Lemma fed_any x v : fed (any c E x v).
  Proof.
    unfold any. destruct (is_empty v); [exact I|]. destruct (block_index c E (len v)) as [lb ls].
    apply fed_bind; [apply fed_shr|]. intros. apply fed_bind; [apply fed_shl|]. intros. apply fed_bind; [apply fed_x_mask|]. intros.
    apply fed_bind; [apply fed_any_loop|]. intros []; [exact I|]. destruct (negb _); [|exact I].
    apply fed_bind; [apply fed_shl|]. intros. apply fed_bind; [apply fed_load|intros; exact I].
  Qed.
  Lemma fed_all_loop v valid xm : forall n i, fed (all_loop n i valid xm v).
  Proof.
    induction n as [|n IH]; intros i; [exact I|]. cbn. apply fed_bind; [apply fed_load|]. intros b. destruct (negb _); [exact I|apply IH].
  Qed.
  Lemma fed_all x v : fed (all c E x v).
  Proof.
    unfold all. destruct (is_empty v); [exact I|]. destruct (block_index c E (len v)) as [lb ls].
    apply fed_bind; [apply fed_shr|]. intros. apply fed_bind; [apply fed_x_mask|]. intros.
    apply fed_bind; [apply fed_all_loop|]. intros []; [|exact I]. cbn. destruct (negb _); [|exact I].
    apply fed_bind; [apply fed_shl|]. intros. apply fed_bind; [apply fed_load|intros; exact I].
  Qed.
  Lemma fed_eq v w : fed (eq c E v w).
  Proof.
    unfold eq. destruct (_ =? _); [|exact I]. generalize 0. induction (N.to_nat (len v)) as [|n IH]; intros i; [exact I|]. cbn.
    apply fed_bind; [apply fed_raw|]. intros a. apply fed_bind; [apply fed_raw|]. intros b. destruct (_ =? _); [apply IH|exact I].
  Qed.
  Lemma fed_hash v : fed (hash c E v).
  Proof.
    unfold hash. generalize 0. induction (N.to_nat (len v)) as [|n IH]; intros i; [exact I|]. cbn.
    apply fed_bind; [apply fed_raw|]. intros a. apply fed_bind; [apply IH|intros; exact I].
  Qed.

  Lemma uadd_exact a b : a + b <= usize_max c -> uadd c a b = Ret (a + b).
  Proof. intros H. unfold uadd. destruct (N.leb_spec (a + b) (usize_max c)); [reflexivity|lia]. Qed.
  Lemma umul_exact a b : a * b <= usize_max c -> umul c a b = Ret (a * b).
  Proof. intros H. unfold umul. destruct (N.leb_spec (a * b) (usize_max c)); [reflexivity|lia]. Qed.
  Lemma usub_exact a b : b <= a -> usub c a b = Ret (a - b).
  Proof. intros H. unfold usub. destruct (N.leb_spec b a); [reflexivity|lia]. Qed.

  (** ** calls that do not touch the storage length *)
  Variables (n : N) (room : N -> Prop).
  Local Notation tame := (tame (capok room) (small_st n)).
  Local Notation fits := (fits (capok room) (small_st n)).
  Lemma fits_same A (m : M ev A) v : fed (fst (m v)) -> vlen (storage (snd (m v))) <= vlen (storage v) -> vcap (storage (snd (m v))) = vcap (storage v) -> fits m v.
  Proof. intros H1 H2 H3 HQ. split; [exact H1|]. split; [unfold capok in *; rewrite H3; exact HQ|]. unfold small_st. lia. Qed.

  Lemma tame_lift A (o : outcome A) : fed o -> tame (lift o). Proof. intros H s. apply fits_lift. exact H. Qed.
  Lemma tame_ret A (a : A) : tame (ret a). Proof. intros s. apply fits_ret. Qed.
  Lemma tame_reads A (g : ev -> outcome A) : (forall s, fed (g s)) -> tame (reads g). Proof. intros H s. apply fits_reads. apply H. Qed.
  Lemma tame_set_len k : tame (set_len k). Proof. intros s. apply fits_same; [exact I|apply N.le_refl|reflexivity]. Qed.
  Lemma tame_store_u w b : tame (store_unchecked w b).
  Proof.
    intros v. apply fits_same; unfold store_unchecked; destruct (_ <? _); cbn; try exact I; try reflexivity.
    unfold vlen, lenN, updN. cbn. rewrite upd_length. apply N.le_refl.
  Qed.
  Lemma tame_store w b : tame (store w b).
  Proof.
    intros v. apply fits_same; unfold store; destruct (_ <? _); cbn; try exact I; try reflexivity.
    unfold vlen, lenN, updN. cbn. rewrite upd_length. apply N.le_refl.
  Qed.
  Lemma tame_set_u i d : tame (set_raw_unchecked c E i d).
  Proof.
    unfold set_raw_unchecked. destruct (block_index c E i) as [w b].
    apply tame_bind; [apply tame_reads; intros; apply fed_load_u|]. intros. apply tame_bind; [apply tame_lift, fed_shl|]. intros.
    apply tame_bind; [apply tame_store_u|]. intros. apply tame_bind; [apply tame_reads; intros; apply fed_load_u|]. intros.
    apply tame_bind; [apply tame_lift, fed_shl|]. intros. apply tame_store_u.
  Qed.
  Lemma tame_set_raw i d : tame (set_raw c E i d).
  Proof. intros v. unfold MemFacts.fits, set_raw. destruct (_ <=? _); [apply fits_same; try exact I; reflexivity|apply tame_set_u]. Qed.
  Lemma tame_set i x : tame (set c E i x). Proof. apply tame_set_raw. Qed.
  Lemma tame_truncate k : tame (truncate k).
  Proof. intros v. apply fits_same; unfold truncate; destruct (_ <? _); try exact I; try reflexivity; apply N.le_refl. Qed.
  Lemma tame_swap a b : tame (swap c E a b).
  Proof.
    assert (R : forall i, tame (reads (fun v => let! r := get_raw c E i v in unwrap r))).
    { intros i. apply tame_reads. intros. apply fed_bind; [apply fed_get_raw|]. intros. apply fed_unwrap. }
    unfold swap. apply tame_bind; [apply R|]. intros. apply tame_bind; [apply R|]. intros. apply tame_bind; [apply tame_set_raw|]. intros. apply tame_set_raw.
  Qed.
  Lemma fed_get_unwrap i v : fed (let! r := get c E i v in unwrap r).
  Proof. apply fed_bind; [apply fed_get|]. intros. apply fed_unwrap. Qed.
  Lemma tame_pop : tame (pop c E).
  Proof.
    assert (H : forall k, tame (i <- lift (usub c k 1) ;; x <- reads (fun v => let! r := get c E i v in unwrap r) ;;
       n1 <- reads (fun v => usub c (num v) 1) ;; set_len n1 ;;; ret (Some x))).
    { intros k. apply tame_bind; [apply tame_lift, fed_usub|]. intros i.
      apply tame_bind; [apply tame_reads; intros; apply fed_get_unwrap|]. intros. apply tame_bind; [apply tame_reads; intros; apply fed_usub|]. intros.
      apply tame_bind; [apply tame_set_len|]. intros. apply tame_ret. }
    intros v. unfold pop, MemFacts.fits. destruct (is_empty v); [split; [exact I|]; split; auto|]. apply H.
  Qed.
  Lemma tame_swap_remove i : tame (swap_remove c E i).
  Proof.
    unfold swap_remove. apply tame_bind; [apply tame_reads; intros; apply fed_usub|]. intros. apply tame_bind; [apply tame_swap|]. intros.
    apply tame_bind; [apply tame_pop|]. intros. apply tame_lift, fed_unwrap.
  Qed.
  Lemma tame_insert_slow : forall k i d, tame (insert_slow c E k i d).
  Proof.
    induction k as [|k IH]; intros i d; cbn; [apply tame_ret|]. apply tame_bind; [apply tame_reads; intros; apply fed_raw|]. intros.
    apply tame_bind; [apply tame_set_u|]. intros. apply IH.
  Qed.
  Lemma tame_insert_blocks : forall k i d, tame (insert_blocks c E k i d).
  Proof.
    induction k as [|k IH]; intros i d; cbn; [apply tame_ret|]. apply tame_bind; [apply tame_reads; intros; apply fed_load|]. intros.
    apply tame_bind; [apply tame_lift; unfold insert_shift; apply fed_bind; [apply fed_shr|]; intros; apply fed_bind; [apply fed_shl|intros; exact I]|]. intros.
    apply tame_bind; [apply tame_store|]. intros. apply IH.
  Qed.
  Lemma tame_remove_slow : forall k i, tame (remove_slow c E k i).
  Proof.
    induction k as [|k IH]; intros i; cbn; [apply tame_ret|]. apply tame_bind; [apply tame_reads; intros; apply fed_raw|]. intros.
    apply tame_bind; [apply tame_set_u|]. intros. apply IH.
  Qed.
  Lemma tame_remove_blocks : forall k i d, tame (remove_blocks c E k i d).
  Proof.
    induction k as [|k IH]; intros i d; cbn [remove_blocks]; [apply tame_ret|]. apply tame_bind; [apply tame_reads; intros; apply fed_load|]. intros.
    apply tame_bind; [apply tame_lift; unfold remove_shift; apply fed_bind; [apply fed_shr|]; intros; apply fed_bind; [apply fed_shl|intros; exact I]|]. intros.
    apply tame_bind; [apply tame_store|]. intros. apply IH.
  Qed.
  Lemma tame_remove i : tame (remove c E i).
  Proof.
    unfold remove. apply tame_bind; [apply tame_reads; intros; apply fed_get_unwrap|]. intros x.
    apply tame_bind; [apply tame_reads; intros; apply fed_usub|]. intros. apply tame_bind; [apply tame_lift, fed_umul|]. intros.
    apply tame_bind; [apply tame_remove_slow|]. intros. apply tame_bind; [apply tame_reads; intros; apply fed_usub|]. intros.
    apply tame_bind; [apply tame_reads; intros; apply fed_raw|]. intros. apply tame_bind; [apply tame_reads; intros; apply fed_usub|]. intros.
    apply tame_bind; [apply tame_set_len|]. intros. apply tame_bind; [apply tame_reads; intros; exact I|]. intros.
    apply tame_bind; [|intros; apply tame_ret]. destruct (_ <? _); [|apply tame_ret].
    apply tame_bind; [apply tame_lift, fed_usub|]. intros. apply tame_remove_blocks.
  Qed.
  Lemma tame_retain St (f : St -> T -> option (bool * St)) st : tame (retain c E f st).
  Proof.
    unfold retain. apply tame_bind; [apply tame_reads; intros; exact I|]. intros l. apply tame_bind.
    - generalize 0 at 1. generalize 0. revert st. induction (N.to_nat l) as [|k IH]; intros st i j; cbn; [apply tame_ret|].
      apply tame_bind; [apply tame_reads; intros; apply fed_get_unwrap|]. intros x. destruct (f st x) as [[[] st']|]; [|apply IH|apply tame_lift; exact I].
      apply tame_bind; [apply tame_set|]. intros. apply IH.
    - intros. apply tame_bind; [apply tame_set_len|intros; apply tame_ret].
  Qed.
  Lemma tame_for_each St (f : St -> T -> option (T * St)) st : tame (for_each c E f st).
  Proof.
    unfold for_each. apply tame_bind; [apply tame_reads; intros; exact I|]. intros l.
    generalize 0. revert st. induction (N.to_nat l) as [|k IH]; intros st i; cbn; [apply tame_ret|].
    apply tame_bind; [apply tame_reads; intros; apply fed_get_unwrap|]. intros x. destruct (f st x) as [[y st']|]; [|apply tame_lift; exact I].
    apply tame_bind; [apply tame_set|]. intros. apply IH.
  Qed.
  Lemma tame_fix : tame (fix_storage c E).
  Proof.
    intros v. apply fits_same; [exact I| |reflexivity]. cbn. unfold vlen. cbn. apply firstn_lenN_le.
  Qed.
  Lemma tame_shrink : (forall cap k, room cap -> room (shrink c cap k)) -> tame (shrink_to_fit c E).
  Proof. intros H. unfold shrink_to_fit. apply tame_bind; [apply tame_fix|]. intros _ v HQ. split; [exact I|]. split; [apply H; exact HQ|auto]. Qed.
End Fed.

(** A container whose capacity is as [room] says serves requests for up to n blocks, and its
    capacity is then still as [room] says. *)
Record serves (c : cfg) (n : N) (room : N -> Prop) : Prop := {
  sv_new : room (vcap (vec_new c));
  sv_shrink : forall cap k, room cap -> room (shrink c cap k);
  sv_grow : forall cap need, room cap -> cap < need -> need <= n ->
    room (grow c cap need) /\ grow c cap need <= alloc_max c /\ grow c cap need * (W c / 8) <= isize_max c }.
Lemma grants_serves c n : grants c n -> serves c n (fun _ => True).
Proof. intros H. split; auto. Qed.
Arguments capok room v /.

(** ** calls that allocate *)
Section Grow.
  Context {T : Type} (c : cfg) (E : enumlike T) (n : N) (room : N -> Prop).
  Hypothesis Hc : cfg_ok c.
  Hypothesis Hroomy : EPB c E * n + EPB c E <= usize_max c.
  Hypothesis Hcomp : admits c E.
  Hypothesis Hg : serves c n room.
  Local Notation P := (EPB c E).
  Local Notation I := (small_st n).
  Local Notation Q := (capok room).

  Lemma P_le_W : 1 <= P /\ P <= W c.
  Proof.
    split; [exact (SlotFacts.EPB_pos Hc (proj1 Hcomp))|exact (SlotFacts.EPB_le_W Hc (proj1 Hcomp))].
  Qed.
  Lemma n_usize k : k < P * n + P -> k < usize_max c.
  Proof using Hc Hroomy Hcomp Hg.
    intros H. lia.
  Qed.
  Lemma div_n k : k / P + 1 <= n <-> k < P * n.
  Proof. clear Hroomy.
    destruct P_le_W as [HP _]. split; intros H.
    - pose proof (N.div_mod k P). pose proof (N.mod_lt k P). nia.
    - assert (k / P < n); [|lia]. apply N.div_lt_upper_bound; lia.
  Qed.

  Lemma ensure_fed need s : room (vcap s) -> need <= n -> exists cap', vec_ensure c need s = Ret (mkRvec (data s) cap') /\ room cap'.
  Proof. clear Hroomy.
    intros HQ H. unfold vec_ensure. destruct (N.leb_spec need (vcap s)) as [G|G]; [exists (vcap s); destruct s; split; [reflexivity|exact HQ]|].
    destruct (sv_grow Hg HQ G H) as (H0 & H1 & H2).
    destruct (N.ltb_spec (isize_max c) (grow c (vcap s) need * (W c / 8))); [lia|].
    destruct (N.ltb_spec (alloc_max c) (grow c (vcap s) need)); [lia|]. eexists. split; [reflexivity|exact H0].
  Qed.
  Lemma fits_resize k x v : k <= n -> fits Q I (on_storage (vec_resize c k x)) v.
  Proof. clear Hroomy.
    intros H HQ. unfold on_storage, vec_resize. destruct (_ <=? _) eqn:Hk.
    - cbn. split; [exact Logic.I|]. split; [exact HQ|]. unfold small_st, vlen. cbn. pose proof (@firstn_lenN_le _ (N.to_nat k) (data (storage v))). lia.
    - destruct (@ensure_fed k (storage v)) as [cap' [-> HQ']]; [exact HQ|exact H|]. cbn. split; [exact Logic.I|]. split; [exact HQ'|]. unfold small_st, vlen in *. cbn. rewrite lenN_app, lenN_repeat. lia.
  Qed.
  Lemma resize_vlen k x v u v' : on_storage (vec_resize c k x) v = (Ret u, v') -> vlen (storage v') = k.
  Proof. clear Hroomy.
    unfold on_storage, vec_resize. destruct (N.leb_spec k (vlen (storage v))) as [Hk|Hk].
    - intros G. injection G as _ <-. unfold vlen in *. cbn. unfold lenN in *. rewrite firstn_length. lia.
    - unfold vec_ensure. destruct (_ <=? _).
      + cbn. intros G. injection G as _ <-. unfold vlen in *. cbn. rewrite lenN_app, lenN_repeat. lia.
      + cbv zeta. destruct (_ <? _); [discriminate|]. destruct (_ <? _); [discriminate|]. cbn. intros G. injection G as _ <-. unfold vlen in *. cbn. rewrite lenN_app, lenN_repeat. lia.
  Qed.
  Lemma num_on_storage f v : num (snd (on_storage f v)) = num v.
  Proof. unfold on_storage. destruct (f (storage v)); reflexivity. Qed.

  Lemma fits_reserve k v : len v + k < P * n -> fits Q I (reserve c E k) v.
  Proof.
    intros H. unfold reserve. pose proof (n_usize (k := len v + k)) as Hu.
    apply fits_bind; [apply fits_reads; exact Logic.I|]. intros l v1 E1. injection E1 as <- <-.
    apply fits_bind. { apply fits_lift. destruct (N.leb_spec (len v + k) (usize_max c)); [exact Logic.I|]. destruct P_le_W. lia. }
    intros d v2 E2. unfold lift in E2. injection E2 as E2 <-. destruct (N.leb_spec (len v + k) (usize_max c)) as [Hle|]; [|discriminate]. injection E2 as <-.
    assert (Hb : (len v + k) / P + 1 <= n) by (apply div_n; exact H).
    apply fits_bind; [apply fits_lift, fed_uadd|]. intros b v3 E3. unfold lift in E3. injection E3 as E3 <-.
    assert (b = (len v + k) / P + 1).
    { unfold uadd in E3. destruct (N.leb_spec ((len v + k) / P + 1) (usize_max c)) as [|Hx]; [congruence|].
      pose proof (n_usize (k := n)) as Hn. destruct P_le_W. nia. }
    subst b. apply fits_resize. exact Hb.
  Qed.
  Lemma reserve_num k v v' : reserve c E k v = (Ret tt, v') -> num v' = num v.
  Proof.
    unfold reserve, bind, reads, lift. cbn. destruct (_ <=? _); [|discriminate]. destruct (uadd c _ _); try discriminate. intros H.
    rewrite <- (num_on_storage (vec_resize c a 0) v), H. reflexivity.
  Qed.

  Lemma fits_grow v : len v < P * n -> fits Q I (grow_if_needed c E) v.
  Proof.
    intros H HQ. unfold grow_if_needed. destruct (_ && _) eqn:Hcond; [|cbn; auto].
    apply andb_true_iff in Hcond. destruct Hcond as [H1 H2]. apply N.eqb_eq in H1, H2.
    assert (Hv : vlen (storage v) + 1 <= n).
    { rewrite <- H2. unfold blocks_for_elements. destruct P_le_W as [HP _].
      assert (N.min (len v + (P - 1)) (usize_max c) / P <= len v / P).
      { transitivity ((len v + (P - 1)) / P); [apply N.div_le_mono; lia|].
        apply N.lt_succ_r. apply N.div_lt_upper_bound; [lia|]. pose proof (N.div_mod (len v) P). lia. }
      apply div_n in H. lia. }
    unfold on_storage, vec_push. destruct (@ensure_fed (vlen (storage v) + 1) (storage v)) as [cap' [-> HQ']]; [exact HQ|exact Hv|]. cbn. split; [exact Logic.I|]. split; [exact HQ'|].
    unfold small_st, vlen in *. cbn. rewrite lenN_app. cbn. lia.
  Qed.
  Lemma grow_num v : num (snd (grow_if_needed c E v)) = num v.
  Proof. unfold grow_if_needed. destruct (_ && _); [apply num_on_storage|reflexivity]. Qed.
  Lemma store_u_num w b v : num (snd (store_unchecked w b v)) = num v.
  Proof. unfold store_unchecked. destruct (_ <? _); reflexivity. Qed.
  Lemma set_num i x v : num (snd (set c E i x v)) = num v.
  Proof.
    unfold set, set_raw. destruct (_ <=? _); [reflexivity|]. unfold set_raw_unchecked. destruct (block_index c E i) as [w b].
    unfold bind, reads, lift. destruct (load_unchecked w v); try reflexivity. destruct (shl c _ _); try reflexivity.
    pose proof (store_u_num w (N.land a (bnot c a0)) v) as H1. destruct (store_unchecked w _ v) as [[]v1]; try exact H1. cbn in H1.
    destruct (load_unchecked w v1); try exact H1. destruct (shl c _ _); try exact H1. rewrite store_u_num. exact H1.
  Qed.
  Lemma fits_push x v : len v < P * n -> fits Q I (push c E x) v.
  Proof.
    intros H. unfold push. apply fits_bind; [apply fits_grow; exact H|]. intros u v1 E1. pose proof (grow_num v) as Hn. rewrite E1 in Hn. cbn in Hn.
    apply fits_bind; [apply fits_reads; exact Logic.I|]. intros idx v2 E2. injection E2 as <- <-.
    apply fits_bind.
    { apply fits_lift. destruct (N.leb_spec (num v1 + 1) (usize_max c)) as [|Hx]; [exact Logic.I|]. pose proof (n_usize (k := num v1 + 1)). unfold len in H. destruct P_le_W. lia. }
    intros n1 v3 _. apply fits_bind; [apply tame_set_len|]. intros _ v4 _. apply tame_set.
  Qed.
  Lemma push_num x v v' : push c E x v = (Ret tt, v') -> num v' = num v + 1.
  Proof.
    unfold push, bind. pose proof (grow_num v) as Hn. destruct (grow_if_needed c E v) as [[]v1]; try discriminate. cbn in Hn. unfold reads, lift. cbn.
    destruct (_ <=? _); [|discriminate]. unfold set_len. intros H. pose proof (set_num (num v1) x (mkEv (storage v1) (num v1 + 1))) as G. rewrite H in G. cbn in G. clear -G Hn. lia.
  Qed.

  Lemma known_num : forall k i sl pan l v, num (snd (extend_known c E k i sl pan l v)) = num v.
  Proof.
    induction k as [|k IH]; intros i sl pan l v; [reflexivity|]. cbn [extend_known]. unfold bind, lift. destruct (uadd c sl i); try reflexivity.
    destruct l as [|x l]; [destruct pan; reflexivity|]. pose proof (set_num a x v) as H. destruct (set c E a x v) as [[]v1]; try exact H. rewrite IH. exact H.
  Qed.
  Lemma known_rest : forall k i sl pan l v r v', extend_known c E k i sl pan l v = (Ret r, v') -> r = skipn k l.
  Proof.
    induction k as [|k IH]; intros i sl pan l v r v' H; [injection H as <- _; reflexivity|]. cbn [extend_known] in H. unfold bind, lift in H.
    destruct (uadd c sl i); try discriminate. destruct l as [|x l]; [destruct pan; discriminate|]. destruct (set c E a x v) as [[]v1]; try discriminate.
    exact (IH _ _ _ _ _ _ _ H).
  Qed.
  Lemma tame_known : forall k i sl pan l, tame Q I (extend_known c E k i sl pan l).
  Proof.
    induction k as [|k IH]; intros i sl pan l; cbn [extend_known]; [apply tame_ret|]. apply tame_bind; [apply tame_lift, fed_uadd|]. intros idx.
    destruct l as [|x l]; [apply tame_lift; destruct pan; exact Logic.I|]. apply tame_bind; [apply tame_set|]. intros. apply IH.
  Qed.
  Lemma fits_rest pan : forall l v, len v + lenN l <= P * n -> fits Q I (extend_rest c E pan l) v.
  Proof.
    induction l as [|x l IH]; intros v H; cbn [extend_rest].
    - destruct pan; [apply fits_lift; exact Logic.I|apply fits_ret].
    - rewrite lenN_cons in H. apply fits_bind; [apply fits_push; lia|]. intros [] v1 E1. apply IH. apply push_num in E1. unfold len in *. lia.
  Qed.
  Lemma uadd_le a b r : uadd c a b = Ret r -> r <= a + b.
  Proof.
    unfold uadd. destruct (_ <=? _); [intros H; injection H as <-; lia|]. destruct (ovf c); [discriminate|]. intros H. injection H as <-. apply N.mod_le. apply N.pow_nonzero. lia.
  Qed.
  Lemma fits_extend it v : len v + N.max (lower it) (lenN (items it)) < P * n -> fits Q I (extend c E it) v.
  Proof.
    intros H. unfold extend. apply fits_bind; [apply fits_reads; exact Logic.I|]. intros sl v1 E1. injection E1 as <- <-.
    apply fits_bind; [apply fits_reserve; lia|]. intros [] v1 E1. apply reserve_num in E1.
    apply fits_bind; [apply fits_reads, fed_uadd|]. intros n1 v2 E2. unfold reads in E2. injection E2 as E2 <-.
    apply fits_bind; [apply tame_set_len|]. intros [] v3 E3. injection E3 as <-.
    apply fits_bind; [apply tame_known|]. intros r v4 E4. apply fits_rest.
    pose proof (known_num (N.to_nat (lower it)) 0 (len v) (ends_in_panic it) (items it) (mkEv (storage v1) n1)) as Hn. rewrite E4 in Hn. cbn in Hn.
    apply known_rest in E4. subst r. apply uadd_le in E2. unfold len in *. rewrite Hn. unfold lenN in *. rewrite skipn_length. lia.
  Qed.
  Lemma extend_num it v v' : len v + N.max (lower it) (lenN (items it)) < P * n -> extend c E it v = (Ret tt, v') ->
    num v' = num v + N.max (lower it) (lenN (items it)).
  Proof.
    intros H. unfold extend, bind, reads. cbn [fst snd]. destruct (reserve c E (lower it) v) as [[[]| | |] v1] eqn:E1; try discriminate. apply reserve_num in E1.
    pose proof (n_usize (k := len v + lower it)) as Hu. assert (Hu' : len v + lower it < usize_max c) by (apply Hu; destruct P_le_W; lia).
    unfold len in *. rewrite uadd_exact by lia. unfold set_len.
    destruct (extend_known c E _ _ _ _ _ _) as [[r| | |] v2] eqn:E2; try discriminate.
    pose proof (known_num (N.to_nat (lower it)) 0 (num v) (ends_in_panic it) (items it) (mkEv (storage v1) (num v1 + lower it))) as Hn. rewrite E2 in Hn. cbn in Hn.
    assert (HL : N.of_nat (length (items it)) >= lower it).
    { assert (K : forall k i sl pan l v r v', extend_known c E k i sl pan l v = (Ret r, v') -> (k <= length l)%nat).
      { clear. induction k as [|k IH]; intros i sl pan l v r v' H; [lia|]. cbn [extend_known] in H. unfold bind, lift in H.
        destruct (uadd c sl i); try discriminate. destruct l as [|x l]; [destruct pan; discriminate|]. destruct (set c E a x v) as [[]v1]; try discriminate.
        apply IH in H. cbn. lia. }
      apply K in E2. lia. }
    apply known_rest in E2. subst r.
    assert (K : forall pan l v v', extend_rest c E pan l v = (Ret tt, v') -> num v' = num v + lenN l).
    { clear -Hc. induction l as [|x l IH]; intros v v' H; cbn [extend_rest] in H; [destruct pan; [discriminate|]; injection H as <-; cbn; lia|].
      unfold bind in H. destruct (push c E x v) as [[[]| | |] v1] eqn:Ep; try discriminate. apply push_num in Ep. apply IH in H. rewrite lenN_cons. lia. }
    intros E3. apply K in E3. unfold lenN in *. rewrite skipn_length in E3. lia.
  Qed.
End Grow.
