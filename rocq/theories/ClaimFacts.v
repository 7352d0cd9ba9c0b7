(** ClaimFacts.v -- from the internal invariants (RC, PoolFacts) to the vocabulary of
    Claims.v: lemmas the theorems of Prop*.v are closed with. *)
From Verif Require Export Claims PoolFacts SafetyFacts.
From Coq Require Import ZifyBool ZifyNat ZifyN.
Open Scope N_scope.
Set Implicit Arguments.
Unset Strict Implicit.
Set Default Proof Using "Type*".

Lemma result_okr S A (r : outcome A * S) Q F : okr Q F r -> result r Q F.
Proof. exact (fun H => H). Qed.
Lemma okr_result S A (r : outcome A * S) Q F : result r Q F -> okr Q F r.
Proof. exact (fun H => H). Qed.
Lemma builds_ook A (o : outcome A) Q F : ook Q F o -> builds o Q F.
Proof. exact (fun H => H). Qed.

(** ** Code that does not allocate does not abort *)
Definition noab {S A} (m : M S A) : Prop := forall s, fst (m s) <> Abort.
Definition nab {A} (o : outcome A) : Prop := o <> Abort.
Lemma noab_bind S A B (m : M S A) (f : A -> M S B) : noab m -> (forall a, noab (f a)) -> noab (bind m f).
Proof.
  intros H1 H2 s. unfold bind. specialize (H1 s). destruct (m s) as [[a|k| |] s']; cbn in *; try discriminate; [apply H2|].
  contradiction.
Qed.
Lemma noab_ret S A (a : A) : noab (@ret S A a). Proof. intros s. discriminate. Qed.
Lemma noab_lift S A (o : outcome A) : nab o -> noab (@lift S A o). Proof. intros H s. exact H. Qed.
Lemma noab_reads S A (g : S -> outcome A) : (forall s, nab (g s)) -> noab (reads g). Proof. intros H s. apply H. Qed.
Lemma nab_bind A B (o : outcome A) (f : A -> outcome B) : nab o -> (forall a, nab (f a)) -> nab (obind o f).
Proof. unfold nab. intros H1 H2. destruct o; cbn; try discriminate; [apply H2|contradiction]. Qed.
Lemma nab_ret A (a : A) : nab (Ret a). Proof. discriminate. Qed.
Lemma nab_unwrap A (o : option A) : nab (unwrap o). Proof. destruct o; discriminate. Qed.
Lemma nab_uadd c a b : nab (uadd c a b). Proof. unfold uadd. destruct (_ <=? _), (ovf c); discriminate. Qed.
Lemma nab_usub c a b : nab (usub c a b). Proof. unfold usub. destruct (_ <=? _), (ovf c); discriminate. Qed.
Lemma nab_umul c a b : nab (umul c a b). Proof. unfold umul. destruct (_ <=? _), (ovf c); discriminate. Qed.
Lemma nab_shl c a b : nab (shl c a b). Proof. unfold shl. destruct (_ <? _), (ovf c); discriminate. Qed.
Lemma nab_shr c a b : nab (shr c a b). Proof. unfold shr. destruct (_ <? _), (ovf c); discriminate. Qed.
Lemma nab_loadu w v : nab (load_unchecked w v). Proof. unfold load_unchecked. destruct (nthN _ _); discriminate. Qed.
Lemma nab_load w v : nab (load w v). Proof. unfold load. destruct (nthN _ _); discriminate. Qed.
Lemma noab_storeu w b : noab (store_unchecked w b). Proof. intros v. unfold store_unchecked. destruct (_ <? _); discriminate. Qed.
Lemma noab_store w b : noab (store w b). Proof. intros v. unfold store. destruct (_ <? _); discriminate. Qed.
Lemma noab_set_len n : noab (set_len n). Proof. intros v. discriminate. Qed.
Lemma noab_truncate n : noab (truncate n). Proof. intros v. unfold truncate. destruct (_ <? _); discriminate. Qed.
Create HintDb noab.
Global Hint Resolve noab_bind noab_ret noab_lift noab_reads nab_bind nab_ret nab_unwrap nab_uadd nab_usub nab_umul nab_shl nab_shr
  nab_loadu nab_load noab_storeu noab_store noab_set_len noab_truncate : noab.
Section NoAbort.
  Context {T : Type} (c : cfg) (E : enumlike T).
  Lemma nab_from_discr d : nab (from_discr E d). Proof. unfold from_discr. destruct (from_d E d); discriminate. Qed.
  Lemma nab_get_raw_unchecked i v : nab (get_raw_unchecked c E i v).
  Proof. unfold get_raw_unchecked. destruct (block_index c E i). auto 10 with noab. Qed.
  Lemma nab_get_raw i v : nab (get_raw c E i v).
  Proof. unfold get_raw. destruct (_ <=? _); auto using nab_get_raw_unchecked with noab. Qed.
  Lemma nab_get i v : nab (get c E i v).
  Proof. unfold get. apply nab_bind; [apply nab_get_raw|]. intros [d|]; auto using nab_from_discr with noab. Qed.
  Lemma nab_get_unwrap i v : nab (let! r := get c E i v in unwrap r).
  Proof. auto using nab_get with noab. Qed.
  Lemma nab_get_raw_unwrap i v : nab (let! r := get_raw c E i v in unwrap r).
  Proof. auto using nab_get_raw with noab. Qed.
  Lemma noab_set_raw_unchecked i d : noab (set_raw_unchecked c E i d).
  Proof. unfold set_raw_unchecked. destruct (block_index c E i). auto 20 with noab. Qed.
  Lemma noab_set_raw i d : noab (set_raw c E i d).
  Proof. intros v. unfold set_raw. destruct (_ <=? _); [discriminate|]. apply noab_set_raw_unchecked. Qed.
  Hint Resolve nab_from_discr nab_get_raw_unchecked nab_get_raw nab_get noab_set_raw_unchecked noab_set_raw nab_get_unwrap nab_get_raw_unwrap : noab.
  Lemma noab_set i x : noab (set c E i x). Proof. apply noab_set_raw. Qed.
  Hint Resolve noab_set : noab.
  Lemma noab_swap a b : noab (swap c E a b). Proof. unfold swap. auto 10 with noab. Qed.
  Lemma noab_pop : noab (pop c E).
  Proof.
    intros v. unfold pop. destruct (is_empty v); [discriminate|].
    match goal with |- fst (?m v) <> Abort => assert (H : noab m) by auto 20 with noab; apply H end.
  Qed.
  Hint Resolve noab_swap noab_pop : noab.
  Lemma noab_swap_remove i : noab (swap_remove c E i). Proof. unfold swap_remove. auto 20 with noab. Qed.
  Lemma noab_remove_slow n : forall i, noab (remove_slow c E n i).
  Proof. induction n; intros i; cbn [remove_slow]; auto 10 with noab. Qed.
  Lemma nab_remove_shift b z : nab (remove_shift c E b z). Proof. unfold remove_shift. auto 10 with noab. Qed.
  Hint Resolve noab_remove_slow nab_remove_shift : noab.
  Lemma noab_remove_blocks n : forall i z, noab (remove_blocks c E n i z).
  Proof. induction n; intros i z; cbn [remove_blocks]; auto 10 with noab. Qed.
  Hint Resolve noab_remove_blocks : noab.
  Lemma noab_remove i : noab (remove c E i).
  Proof.
    unfold remove. repeat (apply noab_bind; [solve [auto 10 with noab]|intros ?]).
    apply noab_bind; [|auto with noab]. destruct (_ <? _); auto 10 with noab.
  Qed.
  Lemma noab_retain_loop St (f : St -> T -> option (bool * St)) n : forall i s st, noab (retain_loop c E f n i s st).
  Proof.
    induction n; intros i s st; cbn [retain_loop]; [auto with noab|]. apply noab_bind; [auto with noab|]. intros x.
    destruct (f st x) as [[[|] st']|]; auto with noab. apply noab_lift. discriminate.
  Qed.
  Lemma noab_retain St (f : St -> T -> option (bool * St)) st : noab (retain c E f st).
  Proof. unfold retain. auto 10 using noab_retain_loop with noab. Qed.
  Lemma noab_for_each_loop St (f : St -> T -> option (T * St)) n : forall i st, noab (for_each_loop c E f n i st).
  Proof.
    induction n; intros i st; cbn [for_each_loop]; [auto with noab|]. apply noab_bind; [auto with noab|]. intros x.
    destruct (f st x) as [[y st']|]; auto with noab. apply noab_lift. discriminate.
  Qed.
  Lemma noab_for_each St (f : St -> T -> option (T * St)) st : noab (for_each c E f st).
  Proof. unfold for_each. auto 10 using noab_for_each_loop with noab. Qed.
End NoAbort.
Lemma noalloc_okr S A (m : M S A) s Q F : noab m -> okr Q F (m s) -> result_noalloc (m s) Q F.
Proof. intros H1 H2. specialize (H1 s). destruct (m s) as [[a|k| |] s']; cbn in *; auto. Qed.
Lemma noalloc_ret S A (m : M S A) s Q : noab m -> okr Q never (m s) -> exists a s', m s = (Ret a, s') /\ Q a s'.
Proof. intros H1 H2. specialize (H1 s). destruct (m s) as [[a|k| |] s']; cbn in *; try contradiction; eauto. Qed.

Section Bridge.
  Context {T : Type} {c : cfg} {E : enumlike T}.
  Local Notation B := (BITS E).
  Local Notation P := (EPB c E).
  Local Notation D := (map (to_d E)).
  Local Notation RC := (RC c E).

  Lemma WF_valid v : WF c E v <-> valid c E v.
  Proof.
    split.
    - intros [H1 H2 H3 H4 H5]. split; [|auto]. rewrite Forall_forall in H1. exact H1.
    - intros [H1 [H2 [H3 [H4 H5]]]]. constructor; try assumption. rewrite Forall_forall. exact H1.
  Qed.

  Lemma BITS_bound : 0 < nv E -> nv E <= 2 ^ 32 -> nv E <= 2 ^ B.
  Proof.
    intros H1 H. rewrite BITS_log2 by exact H1.
    destruct (N.le_gt_cases (N.log2_up (nv E)) 32) as [Hl|Hl].
    - rewrite N.min_r by exact Hl. destruct (N.eq_dec (nv E) 1) as [->|]; [cbn; lia|]. apply N.log2_up_spec. lia.
    - exfalso. apply N.log2_up_le_pow2 in H; [lia|exact H1].
  Qed.

  Hypothesis Hs : setting c E.
  Lemma s_ok : cfg_ok c. Proof. apply Hs. Qed.
  Lemma s_comp : compiles c E = true. Proof. apply Hs. Qed.
  Lemma s_alloc : alloc_isize c. Proof. apply Hs. Qed.
  Lemma s_d : forall x, to_d E x < 2 ^ B.
  Proof.
    intros x. destruct Hs as [Hc [_ [[Hcomp Hn] [Hl _]]]]. pose proof (Hl x).
    assert (nv E <= 2 ^ B) by (apply BITS_bound; lia). lia.
  Qed.
  Lemma s_fd : forall x, from_d E (to_d E x) = Some x. Proof. apply Hs. Qed.
  Local Notation Hc := s_ok.
  Local Notation Hcomp := s_comp.
  Local Notation Hai := s_alloc.
  Local Notation Hd := s_d.
  Local Notation Hfd := s_fd.

  Lemma holds_RC v l : holds c E v l <-> RC false v (D l).
  Proof.
    split.
    - intros [Hv Hi]. apply WF_valid in Hv.
      assert (Hn : num v = lenN l).
      { destruct (N.lt_trichotomy (num v) (lenN l)) as [H|[H|H]]; [exfalso|exact H|exfalso].
        - specialize (Hi (num v)). unfold get_raw, len in Hi. rewrite N.leb_refl in Hi.
          destruct (@nthN_lt_Some _ l (num v) H) as [x Hx]. rewrite <- get_D, Hx in Hi. discriminate.
        - specialize (Hi (lenN l)). rewrite <- get_D, nthN_ge_None in Hi by lia.
          rewrite (RC_get_raw Hc Hcomp Hd _ (WF_RC Hc Hcomp Hd Hv)) in Hi. injection Hi as Hi.
          destruct (@nthN_lt_Some _ (rawlist (c := c) (E := E) v) (lenN l)) as [x Hx]; [|rewrite Hx in Hi; discriminate].
          rewrite <- (rc_num (WF_RC Hc Hcomp Hd Hv)). exact H. }
      constructor; [exact Hv|rewrite lenN_map; exact Hn| |discriminate].
      intros i d Hd'. pose proof (nthN_Some_lt Hd') as Hlt. rewrite lenN_map, <- Hn in Hlt.
      specialize (Hi i). unfold get_raw, len in Hi. rewrite (proj2 (N.leb_gt _ _) Hlt) in Hi.
      pose proof (wf_cover Hv). rewrite (get_raw_unchecked_spec Hc Hcomp) in Hi by lia. cbn in Hi. injection Hi as Hi.
      rewrite nthN_map in Hd'. rewrite get_D in Hd'. rewrite Hd' in Hi. injection Hi as Hi. exact Hi.
    - intros H. split; [apply WF_valid; apply (rc_wf H)|]. intros i.
      rewrite (RC_get_raw Hc Hcomp Hd _ H), nthN_map, get_D. reflexivity.
  Qed.
  Lemma RC_holds cl v l : RC cl v (D l) -> holds c E v l.
  Proof. intros H. apply holds_RC. apply (RC_weaken Hc Hcomp Hd H). Qed.
  Lemma tidy_clean v : tidy c E v <-> clean c E v.
  Proof.
    assert (Hw : forall b, b < 2 ^ (P * B) <-> waste c E b = 0).
    { intros b. unfold waste. rewrite N.shiftr_div_pow2. pose proof (pow2_pos (P * B)). split.
      - apply N.div_small.
      - intros H0. apply N.div_small_iff in H0; [exact H0|lia]. }
    unfold tidy, clean, wastev. split.
    - intros H w. destruct (nthN _ w) as [b|] eqn:Hb; [|reflexivity]. apply Hw, H. eapply nth_error_In. exact Hb.
    - intros H b Hb. apply In_nth_error in Hb. destruct Hb as [n Hn]. specialize (H (N.of_nat n)).
      unfold nthN in H. rewrite Nat2N.id, Hn in H. apply Hw. exact H.
  Qed.
  Lemma holds_tidy_RC v l : holds c E v l -> tidy c E v -> RC true v (D l).
  Proof. intros H Ht. apply holds_RC in H. destruct H as [H1 H2 H3 _]. constructor; try assumption. intros _. apply tidy_clean. exact Ht. Qed.
  Lemma holds_len v l : holds c E v l -> len v = lenN l.
  Proof. intros H. apply holds_RC in H. unfold len. rewrite (rc_num H), lenN_map. reflexivity. Qed.
  Lemma holds_valid v l : holds c E v l -> valid c E v. Proof. intros H. apply H. Qed.
  Lemma D_snoc l x : D (l ++ [x]) = D l ++ [to_d E x]. Proof. rewrite map_app. reflexivity. Qed.

  (** ** C02 *)
  Lemma get_ok v l i : holds c E v l -> get c E i v = Ret (l_get l i).
  Proof. intros H. apply holds_RC in H. rewrite (RC_get_lawful Hc Hcomp Hd Hfd _ H). reflexivity. Qed.
  Lemma set_ok v l i x : holds c E v l -> i < lenN l ->
    exists v', set c E i x v = (Ret tt, v') /\ holds c E v' (l_set l i x) /\ same_allocation v v' /\ vlen (storage v') = vlen (storage v).
  Proof.
    intros H Hi. apply holds_RC in H. unfold set, set_raw, len. rewrite (rc_num H), lenN_map.
    rewrite (proj2 (N.leb_gt _ _) Hi). pose proof (RC_cover Hc Hcomp Hd H) as Hcov. rewrite lenN_map in Hcov.
    rewrite (set_raw_unchecked_spec Hc Hcomp) by lia. eexists. split; [reflexivity|].
    split; [|split; [apply (vcap_set_at Hc Hcomp)|apply (vlen_set_at Hc Hcomp)]].
    apply holds_RC. rewrite l_set_updN, map_updN. apply (RC_set_at Hc Hcomp Hd H); [rewrite lenN_map; exact Hi|apply Hd].
  Qed.
  Lemma set_oob v l i x : holds c E v l -> lenN l <= i -> set c E i x v = (Panic PIndex, v).
  Proof. intros H Hi. apply holds_RC in H. unfold set. apply (RC_set_raw_oob Hc Hcomp Hd _ H). rewrite lenN_map. exact Hi. Qed.

  (** ** C03 *)
  Lemma push_grow cl v l k v' : push_fails c E cl v (D l) k v' -> grow_fails c E v l k v'.
  Proof. intros [G|[G1 [G2 G3]]]; [left; exact G|right]. rewrite lenN_map in G2. repeat split; try assumption; apply (RC_holds G3). Qed.
  Lemma grow_roomy v l k v' : roomy c -> holds c E v l -> grow_fails c E v l k v' -> k = PCapacity /\ v' = v.
  Proof.
    intros Hr H [G|[_ [G _]]]; [exact G|]. apply holds_RC in H. pose proof (RC_lt_max Hc Hcomp Hd Hr H) as K.
    rewrite lenN_map in K. lia.
  Qed.
  Lemma grow_no_room v l k v' : grow_fails c E v l k v' -> no_room k.
  Proof. intros [[-> _]|[-> _]]; [left|right]; reflexivity. Qed.
  Lemma grow_holds v l k v' : holds c E v l -> grow_fails c E v l k v' -> holds c E v' l.
  Proof. intros H [[_ ->]|[_ [_ G]]]; assumption. Qed.
  Lemma push_ok v l x : holds c E v l ->
    result (push c E x v) (fun _ v' => holds c E v' (l ++ [x])) (grow_fails c E v l).
  Proof.
    intros H. apply holds_RC in H. eapply okr_mono; [apply (RC_push Hc Hcomp Hd x H)|..]; [|intros k v'; apply push_grow].
    intros u v' H'; cbv beta in H'. apply RC_holds with (cl := false). rewrite D_snoc. exact H'.
  Qed.
  (** exactly which storage length push leaves, and when it allocates *)
  Lemma push_storage v l x : holds c E v l ->
    result (push c E x v)
      (fun _ v' => vlen (storage v') = (if len v <? P * vlen (storage v) then vlen (storage v) else vlen (storage v) + 1) /\
                   (len v < P * vcap (storage v) -> same_allocation v v'))
      (fun k v' => len v = capacity c E v).
  Proof.
    intros H. apply holds_RC in H. pose proof (rc_wf H) as Hw. pose proof (Ppos Hc Hcomp Hd) as HP.
    pose proof (wf_cover Hw) as Hcov. pose proof (wf_cap Hw) as Hcap. pose proof (wf_num Hw) as Hsm.
    pose proof (W8 Hc Hcomp Hd) as HW8.
    assert (Hg : okr (fun _ v' => num v' = num v /\ num v < P * vlen (storage v') /\
                         vlen (storage v') = (if len v <? P * vlen (storage v) then vlen (storage v) else vlen (storage v) + 1) /\
                         (len v < P * vcap (storage v) -> same_allocation v v'))
                     (fun k v' => len v = capacity c E v) (grow_if_needed c E v)).
    { assert (Hcapv : num v = P * vcap (storage v) -> num v = capacity c E v) by (unfold capacity; lia).
      unfold grow_if_needed, len.
      assert (Hiff : ((num v mod P =? 0) && (blocks_for_elements c E (num v) =? vlen (storage v))) = negb (num v <? P * vlen (storage v))).
      { destruct (N.ltb_spec (num v) (P * vlen (storage v))) as [Hlt|Hge]; cbn [negb].
        - destruct (N.eqb_spec (num v mod P) 0) as [Hm|Hm]; [|reflexivity]. cbn [andb].
          rewrite (blocks_for_aligned Hc Hcomp) by (try exact Hm; lia).
          pose proof (divP_lt_iff Hc Hcomp (num v) (vlen (storage v))) as Hx. apply N.eqb_neq. apply Hx in Hlt. lia.
        - assert (Heq : num v = vlen (storage v) * P) by lia.
          rewrite Heq, N.mod_mul by lia. cbn [N.eqb andb]. rewrite <- Heq.
          rewrite (blocks_for_aligned Hc Hcomp) by (try lia; rewrite Heq, N.mod_mul by lia; reflexivity).
          rewrite Heq, N.div_mul by lia. apply N.eqb_refl. }
      rewrite Hiff. destruct (N.ltb_spec (num v) (P * vlen (storage v))) as [Hlt|Hge]; cbn [negb].
      - cbn. repeat split; auto. 
      - unfold on_storage, vec_push, vec_ensure.
        destruct (N.leb_spec (vlen (storage v) + 1) (vcap (storage v))) as [Hle|Hgt]; cbn.
        + unfold vlen, same_allocation in *; cbn. rewrite lenN_app. cbn. repeat split; lia.
        + assert (Heq : vlen (storage v) = vcap (storage v)) by lia.
          assert (Heq2 : num v = P * vcap (storage v)) by nia.
          destruct (_ <? _); cbn; [exact (Hcapv Heq2)|]. destruct (_ <? _); cbn; [exact I|].
          unfold vlen in *; cbn. rewrite lenN_app. cbn. repeat split; try lia. }
    unfold push. eapply okr_bind_mono; [exact Hg| |auto].
    intros u v1 [H1 [H2 [H3 H4]]]. eapply okr_reads; [reflexivity|].
    unfold len at 1. destruct (N.leb_spec (num v1 + 1) (usize_max c)) as [Hx|Hx].
    2:{ unfold bind, lift, len. cbn. rewrite H1 in Hx. unfold capacity. pose proof (N.mul_le_mono_l _ _ P Hcap). lia. }
    eapply okr_lift; [reflexivity|].
    unfold bind, set_len, set, set_raw, len. cbn [num storage]. rewrite (proj2 (N.leb_gt _ _)) by lia.
    rewrite (set_raw_unchecked_spec Hc Hcomp) by (cbn [storage]; lia). cbn.
    rewrite (vlen_set_at Hc Hcomp). unfold same_allocation in *. rewrite (vcap_set_at Hc Hcomp). cbn. split; assumption.
  Qed.
  Lemma pop_ok v l x : holds c E v (l ++ [x]) -> exists v', pop c E v = (Ret (Some x), v') /\ holds c E v' l /\ storage v' = storage v.
  Proof.
    intros H. pose proof (holds_len H) as Hn. apply holds_RC in H. rewrite D_snoc in H.
    pose proof (RC_pop_snoc Hc Hcomp Hd H) as G.
    rewrite lenN_app in Hn. cbn in Hn.
    assert (E1 : pop c E v = (Ret (Some x), mkEv (storage v) (num v - 1))).
    { unfold pop, is_empty. rewrite Hn. destruct (N.eqb_spec (lenN l + 1) 0); [lia|].
      unfold bind, lift, reads. unfold len in *. rewrite !(usub_ok Hc Hcomp) by lia.
      rewrite (RC_get_lawful Hc Hcomp Hd Hfd (l := l ++ [x]) (cl := false)) by (rewrite D_snoc; exact H).
      rewrite Hn, nthN_app_r by lia. replace (lenN l + 1 - 1 - lenN l) with 0 by lia. cbn.
      unfold set_len, ret. replace (lenN l + 1 - 1) with (num v - 1) by lia. reflexivity. }
    rewrite E1 in *. eexists. split; [reflexivity|]. cbn in G. destruct G as [G _]. split; [|reflexivity].
    apply holds_RC. exact G.
  Qed.
  Lemma pop_empty v : holds c E v [] -> pop c E v = (Ret None, v).
  Proof. intros H. apply holds_RC in H. apply (RC_pop_nil Hc Hcomp Hd H). Qed.

  (** ** C04, C05 *)
  Lemma insert_ok v l i x : countable c E i -> B < W c -> holds c E v l -> i <= lenN l ->
    result (insert c E i x v) (fun _ v' => holds c E v' (l_insert l i x)) (grow_fails c E v l).
  Proof.
    intros Hfx HB H Hi. apply holds_RC in H.
    eapply okr_mono; [apply (RC_insert Hc Hcomp Hd (index := i) x Hfx HB H); rewrite lenN_map; exact Hi|..]; [|intros k v'; apply push_grow].
    intros u v' H'; cbv beta in H'. apply holds_RC. rewrite (insert_D Hc Hcomp Hai Hd Hfd). exact H'.
  Qed.
  Lemma insert_past v l i x : holds c E v l -> lenN l < i -> i <= usize_max c ->
    result (insert c E i x v)
      (fun _ v' => holds c E v' (l ++ [x]))
      (fun k v' => grow_fails c E v l k v' \/ (k = POverflow /\ ovf c = true /\ usize_max c < i + P /\ holds c E v' (l ++ [x]))).
  Proof.
    intros H Hi Hu. apply holds_RC in H.
    eapply okr_mono; [apply (RC_insert_past Hc Hcomp Hd (index := i) x H); [rewrite lenN_map; exact Hi|exact Hu]|..].
    - intros u v' H'; cbv beta in H'. apply holds_RC. rewrite D_snoc. exact H'.
    - intros k v' [G|[G1 [G2 [G3 G4]]]]; [left; exact (push_grow G)|right]. split; [exact G1|]. split; [exact G2|]. split; [exact G3|]. apply holds_RC. rewrite D_snoc. exact G4.
  Qed.
  Lemma remove_ok v l i x : countable c E (i + 1) -> holds c E v l -> l_get l i = Some x ->
    (B < W c /\ tidy c E v) \/ lenN l <= (i / P + 1) * P + 1 ->
    exists v', remove c E i v = (Ret x, v') /\ holds c E v' (l_remove l i) /\ (tidy c E v -> tidy c E v').
  Proof.
    intros Hfx H Hx Hcond.
    assert (G : forall cl, RC cl v (D l) -> (B < W c /\ cl = true) \/ lenN l <= (i / P + 1) * P + 1 ->
      okr (fun r v' => r = x /\ RC cl v' (D (l_remove l i))) never (remove c E i v)).
    { intros cl HR Hcl. rewrite (remove_D Hc Hcomp Hai Hd Hfd).
      apply (RC_remove Hc Hcomp Hd (d := to_d E x) Hfx HR); [rewrite nthN_map, get_D, Hx; reflexivity|apply Hfd|].
      unfold remove_local. rewrite lenN_map. exact Hcl. }
    pose proof (@noab_remove T c E i) as Hna.
    destruct Hcond as [[HB Ht]|Hl].
    - destruct (noalloc_ret Hna (G true (holds_tidy_RC H Ht) (or_introl (conj HB eq_refl)))) as [r [v' [E1 [-> HR]]]].
      exists v'. split; [exact E1|split; [apply (RC_holds HR)|]]. intros _. apply tidy_clean. apply (rc_clean HR eq_refl).
    - destruct (noalloc_ret Hna (G false (proj1 (holds_RC v l) H) (or_intror Hl))) as [r [v' [E1 [-> HR]]]].
      exists v'. split; [exact E1|split; [apply (RC_holds HR)|]]. intros Ht.
      destruct (noalloc_ret Hna (G true (holds_tidy_RC H Ht) (or_intror Hl))) as [r' [v'' [E2 [-> HR']]]].
      rewrite E1 in E2. injection E2 as <-. apply tidy_clean. apply (rc_clean HR' eq_refl).
  Qed.
  Lemma remove_oob_ok v l i : holds c E v l -> lenN l <= i -> remove c E i v = (Panic PUnwrap, v).
  Proof. intros H Hi. apply holds_RC in H. apply (remove_oob Hc Hcomp Hd H). rewrite lenN_map. exact Hi. Qed.
  Lemma remove_any v l i x : holds c E v l -> l_get l i = Some x ->
    result_noalloc (remove c E i v)
      (fun r v' => r = x /\ valid c E v' /\ len v' + 1 = len v)
      (fun k v' => k = POverflow /\ ovf c = true /\
         ((W c <= B /\ valid c E v' /\ len v' + 1 = len v) \/ (~ countable c E (i + 1) /\ v' = v))).
  Proof.
    intros H Hx. apply holds_RC in H. apply noalloc_okr; [apply noab_remove|].
    assert (Hd0 : nthN (D l) i = Some (to_d E x)) by (rewrite nthN_map, get_D, Hx; reflexivity).
    eapply okr_mono; [apply (RC_remove_safe Hc Hcomp Hd i H)|..].
    - intros r v' [G1 [G2 [d [G3 G4]]]]. rewrite Hd0 in G3. injection G3 as <-. rewrite Hfd in G4. injection G4 as <-.
      split; [reflexivity|split; [apply WF_valid; exact G1|exact G2]].
    - intros k v' [[-> [_ G]]|[[-> [_ [d [G1 G2]]]]|[[-> [G1 [G2 [G3 G4]]]]|[-> [G1 [G2 G]]]]]].
      + apply nthN_Some_lt in Hd0. lia.
      + rewrite Hd0 in G1. injection G1 as <-. rewrite Hfd in G2. discriminate.
      + split; [reflexivity|]. split; [exact G1|]. left. split; [exact G2|]. split; [apply WF_valid; exact G3|exact G4].
      + split; [reflexivity|]. split; [exact G1|]. right. split; [|exact G2]. intros Hfx. pose proof (fixable_next Hc Hcomp Hd Hfx). lia.
  Qed.

  (** ** C06 *)
  Lemma swap_ok v l a b : holds c E v l -> a < lenN l -> b < lenN l ->
    exists v', swap c E a b v = (Ret tt, v') /\ holds c E v' (l_swap l a b).
  Proof.
    intros H Ha Hb. apply holds_RC in H. unfold l_swap. rewrite <- (get_D l a), <- (get_D l b).
    destruct (@nthN_lt_Some _ l a Ha) as [x Hx]. destruct (@nthN_lt_Some _ l b Hb) as [y Hy]. rewrite Hx, Hy.
    destruct (noalloc_ret (@noab_swap T c E a b) (RC_swap Hc Hcomp Hd H (ia := a) (ib := b) (a := to_d E x) (b := to_d E y)
      ltac:(rewrite nthN_map, Hx; reflexivity) ltac:(rewrite nthN_map, Hy; reflexivity))) as [[] [v' [E1 HR]]].
    exists v'. split; [exact E1|]. apply holds_RC. rewrite !l_set_updN, !map_updN. exact HR.
  Qed.
  Lemma swap_oob v l a b : holds c E v l -> lenN l <= a \/ lenN l <= b -> swap c E a b v = (Panic PUnwrap, v).
  Proof. intros H Ho. apply holds_RC in H. apply (RC_swap_oob Hc Hcomp Hd H). rewrite lenN_map. exact Ho. Qed.
  Lemma swap_remove_ok v l i x : holds c E v l -> l_get l i = Some x ->
    exists v', swap_remove c E i v = (Ret x, v') /\ holds c E v' (l_swap_remove l i).
  Proof.
    intros H Hx. apply holds_RC in H. rewrite <- get_D in Hx. destruct (snoc_cases l) as [->|[l' [y ->]]].
    { apply nthN_Some_lt in Hx. cbn in Hx. lia. }
    rewrite D_snoc in H. unfold l_swap_remove. rewrite l_pop_snoc.
    assert (G : okr (fun r v' => r = x /\ holds c E v' (if i =? lenN l' then l' else l_set l' i y)) never (swap_remove c E i v)).
    { eapply okr_mono; [apply (RC_swap_remove Hc Hcomp Hd (index := i) (d := to_d E x) H)|..].
      - rewrite <- D_snoc, nthN_map, Hx. reflexivity.
      - intros r v' [G1 G2]. rewrite Hfd in G1. split; [congruence|]. rewrite lenN_map in G2.
        destruct (i =? lenN l'); [apply holds_RC; exact G2|]. rewrite l_set_updN. apply holds_RC. rewrite map_updN. exact G2.
      - intros k v' [_ [G1 _]]. rewrite Hfd in G1. discriminate. }
    destruct (noalloc_ret (@noab_swap_remove T c E i) G) as [r [v' [E1 [-> HR]]]]. eauto.
  Qed.
  Lemma swap_remove_oob v l i : holds c E v l -> lenN l <= i -> exists k, swap_remove c E i v = (Panic k, v).
  Proof.
    intros H Hi. apply holds_RC in H. destruct (RC_swap_remove_oob Hc Hcomp Hd (index := i) H) as [k [Hk _]];
      [rewrite lenN_map; exact Hi|]. eauto.
  Qed.

  (** ** C07 *)
  Lemma map_firstn n l : D (firstn n l) = firstn n (D l).
  Proof. symmetry. apply firstn_map. Qed.
  Lemma truncate_ok v l n : holds c E v l ->
    exists v', truncate n v = (Ret tt, v') /\ holds c E v' (l_truncate l n) /\ storage v' = storage v.
  Proof.
    intros H. apply holds_RC in H.
    destruct (noalloc_ret (@noab_truncate n) (RC_truncate Hc Hcomp Hd n H)) as [[] [v' [E1 [HR Hst]]]].
    exists v'. split; [exact E1|]. split; [|exact Hst]. apply holds_RC. unfold l_truncate. rewrite map_firstn. exact HR.
  Qed.
  Lemma clear_ok v l : holds c E v l -> exists v', clear v = (Ret tt, v') /\ holds c E v' [] /\ storage v' = storage v.
  Proof. intros H. destruct (truncate_ok 0 H) as [v' [G1 [G2 G3]]]. exists v'. split; [exact G1|]. split; [exact G2|exact G3]. Qed.
  Lemma resize_ok v l n x : holds c E v l -> n <= usize_max c ->
    result (resize c E n x v) (fun _ v' => holds c E v' (l_resize l n x))
      (fun k v' => no_room k /\ exists m, m <= n - lenN l /\ holds c E v' (l ++ repeat x (N.to_nat m))).
  Proof.
    intros H Hn. apply holds_RC in H. eapply okr_mono; [apply (RC_resize Hc Hcomp Hd x Hai H Hn)|..].
    - intros u v' G. cbv beta in G. rewrite lenN_map in G. eapply RC_holds. unfold l_resize.
      destruct (lenN l <? n); [rewrite map_app, map_repeat; exact G|]. rewrite map_firstn. exact G.
    - intros k v' [G1 [m [G2 G3]]]. rewrite lenN_map in G2. split; [exact G1|]. exists m. split; [exact G2|]. apply holds_RC.
      rewrite map_app, map_repeat. exact G3.
  Qed.

  (** ** C08, C28 *)
  Lemma retain_ok St (f : St -> T -> option (bool * St)) st v l : holds c E v l ->
    result_noalloc (retain c E f st v)
      (fun st' v' => exists K, l_retain f st l = (K, Some st') /\ holds c E v' K)
      (fun k v' => k = PUser /\ exists K, l_retain f st l = (K, None) /\ holds c E v' (K ++ skipn (length K) l)).
  Proof.
    intros H. apply holds_RC in H. apply noalloc_okr; [apply noab_retain|].
    eapply okr_mono; [apply (RC_retain Hc Hcomp Hd Hfd f st H)|..]; cbv beta.
    - intros r v'. destruct (l_retain f st l) as [K o]. intros [-> HR]. exists K. split; [reflexivity|]. apply holds_RC. exact HR.
    - intros k v'. destruct (l_retain f st l) as [K o]. intros [-> [-> HR]]. split; [reflexivity|]. exists K. split; [reflexivity|].
      apply holds_RC. exact HR.
  Qed.
  Lemma for_each_ok St (f : St -> T -> option (T * St)) st v l : holds c E v l ->
    result_noalloc (for_each c E f st v)
      (fun st' v' => exists K, l_map f st l = (K, Some st') /\ holds c E v' K)
      (fun k v' => k = PUser /\ exists K, l_map f st l = (K, None) /\ holds c E v' (K ++ skipn (length K) l)).
  Proof.
    intros H. apply holds_RC in H. apply noalloc_okr; [apply noab_for_each|].
    eapply okr_mono; [apply (RC_for_each Hc Hcomp Hd Hfd f st H)|..]; cbv beta.
    - intros r v'. destruct (l_map f st l) as [K o]. intros [-> HR]. exists K. split; [reflexivity|]. apply holds_RC. exact HR.
    - intros k v'. destruct (l_map f st l) as [K o]. intros [-> [-> HR]]. split; [reflexivity|]. exists K. split; [reflexivity|].
      apply holds_RC. exact HR.
  Qed.

  (** ** C09, C10 *)
  Lemma append_pre cl cl' v w ds es : RC cl v ds -> RC cl' w es -> roomy c \/ countable c E (lenN es) /\ lenN ds + lenN es <= usize_max c ->
    fixable c E (lenN es) /\ (need c E (lenN ds) + need c E (lenN es) <= alloc_max c -> lenN ds + lenN es <= usize_max c).
  Proof.
    intros H H' [Hr|[H1 H2]]; [|split; [exact H1|auto]]. split; [|apply (append_fits Hc Hcomp Hd Hr)].
    apply (fixable_le Hc Hcomp (m := lenN es + 1)); [lia|apply (RC_fixable Hc Hcomp Hd Hr H')].
  Qed.
  Lemma holds_countable v l : roomy c -> holds c E v l -> countable c E (lenN l + 1).
  Proof. intros Hr H. apply holds_RC in H. pose proof (RC_fixable Hc Hcomp Hd Hr H) as G. rewrite lenN_map in G. exact G. Qed.
  Lemma countable_le n m : n <= m -> countable c E m -> countable c E n.
  Proof. unfold countable. lia. Qed.
  Lemma append_ok v w l m : holds c E v l -> holds c E w m ->
    lenN l mod P <> 0 \/ (small c = true /\ (roomy c \/ countable c E (lenN m) /\ lenN l + lenN m <= usize_max c)) ->
    result (append c E (v, w)) (fun _ s => holds c E (fst s) (l ++ m) /\ holds c E (snd s) [])
      (fun k s => no_room k /\ holds c E (fst s) l /\ holds c E (snd s) m).
  Proof.
    intros H H' Hcase. pose proof H as H0. pose proof H' as H0'. apply holds_RC in H. apply holds_RC in H'.
    destruct (N.eq_dec (lenN l mod P) 0) as [Hm|Hm].
    - destruct Hcase as [Hx|[Hsm Hx]]; [contradiction|].
      assert (Hpre : fixable c E (lenN (D m)) /\ (need c E (lenN (D l)) + need c E (lenN (D m)) <= alloc_max c -> lenN (D l) + lenN (D m) <= usize_max c)).
      { apply (append_pre H H'). rewrite !lenN_map. exact Hx. }
      eapply okr_mono; [apply (RC_append_fast Hc Hcomp Hd H H'); [rewrite lenN_map; exact Hm|apply Hpre|apply Hpre]|..]; cbv beta; try rewrite Hsm.
      + intros u s [G1 G2]. split; [apply holds_RC; rewrite map_app; exact G1|apply holds_RC; exact G2].
      + intros k s [-> [G1 G2]]. split; [left; reflexivity|]. split; apply holds_RC; assumption.
    - eapply okr_mono; [apply (RC_append_slow Hc Hcomp Hd H H'); rewrite lenN_map; exact Hm|..]; cbv beta.
      + intros u s [G1 [G2 _]]. split; [apply holds_RC; rewrite map_app; exact G1|apply holds_RC; exact G2].
      + intros k s [G1 ->]. split; [exact G1|]. split; assumption.
  Qed.
  (** the aligned path of the Vec storages: the source keeps its length but not its storage *)
  Lemma append_aligned v w l m : small c = false -> holds c E v l -> holds c E w m -> lenN l mod P = 0 ->
    roomy c \/ countable c E (lenN m) /\ lenN l + lenN m <= usize_max c ->
    result (append c E (v, w))
      (fun _ s => holds c E (fst s) (l ++ m) /\ len (snd s) = lenN m /\ data (storage (snd s)) = [])
      (fun k s => no_room k /\ holds c E (fst s) l /\ holds c E (snd s) m).
  Proof.
    intros Hsm H H' Hm Hx. apply holds_RC in H. apply holds_RC in H'.
    assert (Hpre : fixable c E (lenN (D m)) /\ (need c E (lenN (D l)) + need c E (lenN (D m)) <= alloc_max c -> lenN (D l) + lenN (D m) <= usize_max c)).
    { apply (append_pre H H'). rewrite !lenN_map. exact Hx. }
    eapply okr_mono; [apply (RC_append_fast Hc Hcomp Hd H H'); [rewrite lenN_map; exact Hm|apply Hpre|apply Hpre]|..]; cbv beta; try rewrite Hsm.
    - intros u s [G1 [G2 [G3 _]]]. rewrite lenN_map in G2. split; [apply holds_RC; rewrite map_app; exact G1|auto].
    - intros k s [-> [G1 G2]]. split; [left; reflexivity|]. split; apply holds_RC; assumption.
  Qed.
  Lemma get_no_storage v i : i < len v -> data (storage v) = [] -> get c E i v = UB.
  Proof.
    intros Hi Hn. unfold get, get_raw. rewrite (proj2 (N.leb_gt _ _) Hi).
    rewrite (get_raw_unchecked_UB Hc Hcomp); [reflexivity|]. unfold vlen. rewrite Hn. apply N.le_0_l.
  Qed.
  Lemma split_off_end v l : holds c E v l ->
    match split_off c E (lenN l) v with
    | (Ret w, v') => v' = v /\ holds c E w []
    | (Panic k, v') => k = PCapacity /\ v' = v
    | (Abort, _) => True
    | (UB, _) => False
    end.
  Proof.
    intros H. pose proof (holds_len H) as Hn. unfold split_off. rewrite Hn, N.leb_refl.
    unfold bind, reads, lift. rewrite Hn, (usub_ok Hc Hcomp), N.sub_diag by lia.
    pose proof (RC_with_capacity Hc Hcomp Hd (n := 0) ltac:(lia)) as G.
    destruct (with_capacity c E 0) as [w|k| |]; cbn in G |- *; try contradiction; auto.
    destruct G as [G _]. split.
    - unfold len in Hn. destruct v as [s n]. cbn in Hn |- *. congruence.
    - apply RC_holds with (cl := true). pose proof (rc_num G) as Hw. destruct w as [s n]. cbn in Hw |- *. subst n. exact G.
  Qed.
  Lemma split_off_oob v l at_ : holds c E v l -> lenN l < at_ -> split_off c E at_ v = (Panic PAssert, v).
  Proof. intros H Ha. unfold split_off. rewrite (holds_len H), (proj2 (N.leb_gt _ _) Ha). reflexivity. Qed.
  Lemma split_off_UB v l at_ : holds c E v l -> at_ < lenN l ->
    fst (split_off c E at_ v) = UB \/ fst (split_off c E at_ v) = Abort \/ split_off c E at_ v = (Panic PCapacity, v).
  Proof.
    intros H Ha. pose proof (holds_len H) as Hn. pose proof (holds_RC v l) as HR. apply HR in H. clear HR.
    pose proof (RC_max Hc Hcomp Hd H) as Hsm. rewrite lenN_map in Hsm.
    destruct (split_off c E at_ v) as [o v'] eqn:Eq. cbn [fst].
    unfold split_off in Eq. rewrite Hn, (proj2 (N.leb_le _ _)) in Eq by lia.
    unfold bind at 1, reads at 1 in Eq. rewrite Hn, (usub_ok Hc Hcomp) in Eq by lia.
    pose proof (RC_with_capacity Hc Hcomp Hd (n := lenN l - at_) ltac:(lia)) as G.
    unfold bind at 1, lift at 1 in Eq. destruct (with_capacity c E (lenN l - at_)) as [w|k| |]; cbn [ook] in G; try contradiction.
    2:{ subst k. right. right. congruence. }
    2:{ right. left. congruence. }
    left. destruct G as [_ [_ Hw]].
    destruct (N.to_nat (lenN l - at_)) as [|n] eqn:En; [lia|]. cbn [for_range] in Eq.
    unfold set_len, bind, lift, ret in Eq. cbv beta iota in Eq. rewrite (uadd_ok Hc Hcomp) in Eq by lia. cbv beta iota in Eq.
    rewrite N.add_0_r in Eq.
    destruct (@nthN_lt_Some _ (D l) at_) as [d Hd0]; [rewrite lenN_map; exact Ha|].
    rewrite (RC_get_raw_unchecked Hc Hcomp Hd H Hd0) in Eq.
    rewrite (set_raw_unchecked_UB Hc Hcomp) in Eq by (cbn [storage]; rewrite Hw; apply N.le_0_l). cbn in Eq. congruence.
  Qed.

  (** ** C11, C13, C14 *)
  Lemma from_elem_ok x n : n <= usize_max c -> builds (from_elem c E x n) (fun v => holds c E v (repeat x (N.to_nat n))) no_room.
  Proof.
    intros Hn. eapply ook_mono; [apply (build_ok Hc Hcomp Hai Hd Hfd (RC_extend_with_value Hc Hcomp Hd x Hai (RC_new Hc Hcomp Hd) Hn))|..].
    - intros v G. cbn [app] in G. eapply RC_holds. rewrite map_repeat. exact G.
    - intros k [v [G _]]. exact G.
  Qed.
  Lemma extend_ok v l it : holds c E v l -> lower it <= lenN (items it) -> lower it <= usize_max c -> reservable c E (lenN l) (lower it) ->
    result (extend c E it v) (fun _ v' => ends_in_panic it = false /\ holds c E v' (l ++ items it))
      (fun k v' => (no_room k /\ exists l1 l2, items it = l1 ++ l2 /\ holds c E v' (l ++ l1)) \/
                   (k = PUser /\ ends_in_panic it = true /\ holds c E v' (l ++ items it))).
  Proof.
    intros H Hh Hu Hfit. pose proof H as H0. apply holds_RC in H.
    destruct (N.le_gt_cases (lenN l + lower it) (usize_max c)) as [Hle|Hgt].
    2:{ rewrite (RC_extend_overflow Hc Hcomp Hd (it := it) H) by (rewrite lenN_map; exact Hgt).
        left. split; [right; reflexivity|]. exists [], (items it). rewrite app_nil_r. auto. }
    eapply okr_mono; [apply (RC_extend Hc Hcomp Hd (it := it) H); rewrite lenN_map; [exact Hle|exact Hfit]|..]; cbv beta.
    - intros u v' [G1 [G2 G3]]. split; [exact G1|]. apply RC_holds with (cl := false). rewrite map_app. exact G3.
    - intros k v' [[G0 [l1 [l2 [G1 G2]]]]|[[-> [G1 [G2 G3]]]|[G1 G2]]].
      + left. split; [exact G0|]. exists l1, l2. split; [exact G1|]. apply holds_RC. rewrite map_app. exact G2.
      + right. split; [reflexivity|]. split; [exact G1|]. apply holds_RC. rewrite map_app. exact G3.
      + exfalso. lia.
  Qed.
End Bridge.
