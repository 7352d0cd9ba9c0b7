(** EnumFacts.v -- the EnumLike implementations realise the numbering of EnumSpec.v. *)
From Verif Require Export EnumSpec BitFacts.
From Verif Require Import OpFacts ShiftFacts.
From Coq Require Import ZifyBool ZifyNat ZifyN.
Open Scope N_scope.
Set Implicit Arguments.
Unset Strict Implicit.
Set Default Proof Using "Type*".

(** ** Lists *)
Lemma nth_error_nil A n : nth_error (@nil A) n = None.
Proof. destruct n; reflexivity. Qed.
Lemma Forall2_length A B (R : A -> B -> Prop) l1 l2 : Forall2 R l1 l2 -> length l1 = length l2.
Proof. intros H. induction H; cbn; lia. Qed.
Lemma nthN_app A (l1 l2 : list A) i :
  nthN (l1 ++ l2) i = if i <? lenN l1 then nthN l1 i else nthN l2 (i - lenN l1).
Proof.
  unfold nthN, lenN. destruct (N.ltb_spec i (N.of_nat (length l1))) as [H|H].
  - rewrite nth_error_app1 by lia. reflexivity.
  - rewrite nth_error_app2 by lia. f_equal. lia.
Qed.
Lemma nthN_grid A X Y (f : X -> Y -> A) (L : list Y) (R : list X) d :
  nthN (flat_map (fun r => map (f r) L) R) d =
  match nthN R (d / lenN L), nthN L (d mod lenN L) with
  | Some r, Some x => Some (f r x)
  | _, _ => None
  end.
Proof.
  destruct (N.eq_dec (lenN L) 0) as [H0|H0].
  - rewrite (lenN_nil_inv H0). cbn [map]. assert (H : flat_map (fun r : X => @nil A) R = []) by (clear; induction R; auto).
    rewrite H. unfold nthN. rewrite nth_error_nil. destruct (nth_error R _); [|reflexivity]. rewrite nth_error_nil. reflexivity.
  - revert d. induction R as [|r R IH]; intros d.
    + cbn. unfold nthN. rewrite nth_error_nil. destruct (N.to_nat (d / lenN L)); reflexivity.
    + cbn [flat_map]. rewrite nthN_app, lenN_map. destruct (N.ltb_spec d (lenN L)) as [Hlt|Hge].
      * rewrite N.div_small, N.mod_small by assumption. rewrite nthN_map. cbn. destruct (nthN L d); reflexivity.
      * rewrite IH.
        assert (Hd : d = (d - lenN L) + 1 * lenN L) by lia.
        assert (E1 : d / lenN L = (d - lenN L) / lenN L + 1) by (rewrite Hd at 1; apply N.div_add; exact H0).
        assert (E2 : d mod lenN L = (d - lenN L) mod lenN L) by (rewrite Hd at 1; apply N.mod_add; exact H0).
        rewrite E1, E2, nthN_cons_S by lia. rewrite N.add_sub. reflexivity.
Qed.

(** ** Mixed-radix numbers: first digit least significant *)
Fixpoint mix (ns ds : list N) : N :=
  match ns, ds with
  | n :: ns', d :: ds' => d + n * mix ns' ds'
  | _, _ => 0
  end.
Fixpoint prod (ns : list N) : N := match ns with [] => 1 | n :: ns' => n * prod ns' end.
Lemma prod_app l1 l2 : prod (l1 ++ l2) = prod l1 * prod l2.
Proof. induction l1 as [|n l1 IH]; cbn [prod app]; [lia|]. rewrite IH. lia. Qed.
Lemma prod_pos ns : Forall (fun n => 1 <= n) ns -> 1 <= prod ns.
Proof. intros H. induction H as [|n ns Hn H IH]; cbn [prod]; [lia|]. nia. Qed.
Definition digits (ns ds : list N) : Prop := Forall2 (fun d n => d < n) ds ns.
Lemma digits_pos ns ds : digits ns ds -> Forall (fun n => 1 <= n) ns.
Proof. intros H. induction H; constructor; [lia|assumption]. Qed.
Lemma mix_lt ns ds : digits ns ds -> mix ns ds < prod ns.
Proof. intros H. induction H as [|d n ds ns Hd H IH]; cbn [mix prod]; [lia|]. nia. Qed.
Lemma mix_app ns1 ds1 ns2 ds2 : length ns1 = length ds1 ->
  mix (ns1 ++ ns2) (ds1 ++ ds2) = mix ns1 ds1 + prod ns1 * mix ns2 ds2.
Proof.
  revert ds1. induction ns1 as [|n ns1 IH]; intros [|d ds1] H; try discriminate; cbn [mix prod app]; [lia|].
  rewrite IH by (cbn in H; lia). lia.
Qed.

(** ** Sequences: position <-> digits *)
Inductive pick : list (list val) -> list N -> list val -> Prop :=
| pick_nil : pick [] [] []
| pick_cons L Ls d ds v vs : nthN L d = Some v -> pick Ls ds vs -> pick (L :: Ls) (d :: ds) (v :: vs).
Lemma pick_digits Ls ds vs : pick Ls ds vs -> digits (map (@lenN val) Ls) ds.
Proof. intros H. induction H; constructor; [eapply nthN_Some_lt; eassumption|assumption]. Qed.
Lemma len_seqs Ls : lenN (all_seqs Ls) = prod (map (@lenN val) Ls).
Proof.
  induction Ls as [|L Ls IH]; [reflexivity|]. cbn [all_seqs map prod]. rewrite <- IH. clear IH.
  generalize (all_seqs Ls) as R. induction R as [|r R IH]; [cbn; lia|]. cbn [flat_map]. rewrite lenN_app, lenN_map, IH.
  unfold lenN. cbn [length]. lia.
Qed.
Lemma seqs_pick Ls : forall d vs, nthN (all_seqs Ls) d = Some vs <-> exists ds, pick Ls ds vs /\ d = mix (map (@lenN val) Ls) ds.
Proof.
  induction Ls as [|L Ls IH]; intros d vs.
  - cbn [all_seqs]. split.
    + intros H. exists []. pose proof (nthN_Some_lt H) as Hl. cbn in Hl. assert (d = 0) by lia. subst d. cbn in H.
      injection H as <-. split; [constructor|reflexivity].
    + intros [ds [Hp ->]]. inversion Hp; subst. reflexivity.
  - cbn [all_seqs map]. rewrite nthN_grid. split.
    + intros H. destruct (nthN (all_seqs Ls) (d / lenN L)) as [r|] eqn:Hr; [|discriminate].
      destruct (nthN L (d mod lenN L)) as [x|] eqn:Hx; [|discriminate]. injection H as <-.
      apply IH in Hr. destruct Hr as [ds [Hp Hd]]. exists (d mod lenN L :: ds). split; [constructor; assumption|].
      cbn [mix]. rewrite <- Hd. pose proof (nthN_Some_lt Hx). pose proof (N.div_mod d (lenN L)). lia.
    + intros [ds [Hp ->]]. inversion Hp; subst. cbn [mix].
      match goal with H : nthN L ?x = Some ?y, H2 : pick Ls ?z ?w |- _ =>
        pose proof (nthN_Some_lt H) as Hlt;
        assert (Hq : (x + lenN L * mix (map (@lenN val) Ls) z) / lenN L = mix (map (@lenN val) Ls) z)
          by (rewrite (N.mul_comm (lenN L)), N.div_add, N.div_small by lia; lia);
        assert (Hm : (x + lenN L * mix (map (@lenN val) Ls) z) mod lenN L = x)
          by (rewrite (N.mul_comm (lenN L)), N.mod_add, N.mod_small by lia; lia);
        rewrite Hq, Hm, H, (proj2 (IH _ w) (ex_intro _ z (conj H2 eq_refl)))
      end. reflexivity.
Qed.

(** ** An implementation realises a numbering *)
Section Good.
  Variable c : cfg.

  Record good (k : code) (L : list val) : Prop := {
    g_nv : k_nv k = Some (lenN L);
    g_fit : lenN L <= usize_max c;
    g_to : forall d v, nthN L d = Some v -> k_to k v = Ret d;
    g_from : forall d v, nthN L d = Some v -> k_from k d = Ret v
  }.
  Lemma good_num k L : good k L -> num_variants k = lenN L.
  Proof. intros H. unfold num_variants. rewrite (g_nv H). reflexivity. Qed.

  Lemma uadd_fit a b : a + b <= usize_max c -> uadd c a b = Ret (a + b).
  Proof. intros H. unfold uadd. rewrite (proj2 (N.leb_le _ _) H). reflexivity. Qed.
  Lemma umul_fit a b : a * b <= usize_max c -> umul c a b = Ret (a * b).
  Proof. intros H. unfold umul. rewrite (proj2 (N.leb_le _ _) H). reflexivity. Qed.
  Lemma usub_fit a b : b <= a -> usub c a b = Ret (a - b).
  Proof. intros H. unfold usub. rewrite (proj2 (N.leb_le _ _) H). reflexivity. Qed.
  Lemma udiv_fit a b : b <> 0 -> udiv a b = Ret (a / b).
  Proof. intros H. unfold udiv. destruct (N.eqb_spec b 0); [contradiction|reflexivity]. Qed.
  Lemma urem_fit a b : b <> 0 -> urem a b = Ret (a mod b).
  Proof. intros H. unfold urem. destruct (N.eqb_spec b 0); [contradiction|reflexivity]. Qed.
  Lemma cfit_Some n m : cfit c n = Some m -> m = n /\ n <= usize_max c.
  Proof. unfold cfit. destruct (N.leb_spec n (usize_max c)); intros G; [injection G as <-; auto|discriminate]. Qed.
  Lemma cadd_Some a b m : cadd c a b = Some m -> exists x y, a = Some x /\ b = Some y /\ m = x + y /\ m <= usize_max c.
  Proof.
    unfold cadd. destruct a as [x|], b as [y|]; try discriminate. intros H. apply cfit_Some in H.
    exists x, y. destruct H as [-> H]. auto.
  Qed.
  Lemma cmul_Some a b m : cmul c a b = Some m -> exists x y, a = Some x /\ b = Some y /\ m = x * y /\ m <= usize_max c.
  Proof.
    unfold cmul. destruct a as [x|], b as [y|]; try discriminate. intros H. apply cfit_Some in H.
    exists x, y. destruct H as [-> H]. auto.
  Qed.

  Lemma usize_ge1 : 2 <= usize_bits c -> 3 <= usize_max c.
  Proof. intros H. unfold usize_max. assert (2 ^ 2 <= 2 ^ usize_bits c) by (apply N.pow_le_mono_r; lia). cbn in *. lia. Qed.
  Hypothesis Hbits : 2 <= usize_bits c.

  Lemma unit_good : good unit_code [VUnit].
  Proof.
    pose proof (usize_ge1 Hbits). constructor; [reflexivity|cbn; lia|..]; intros d v Hv;
      pose proof (nthN_Some_lt Hv) as Hl; cbn in Hl; assert (d = 0) by lia; subst d; cbn in Hv; injection Hv as <-; reflexivity.
  Qed.
  Lemma two_cases d : d < 2 -> d = 0 \/ d = 1. Proof. clear. lia. Qed.
  Lemma bool_good : good bool_code [VBool false; VBool true].
  Proof.
    pose proof (usize_ge1 Hbits). constructor; [reflexivity|cbn; lia|..]; intros d v Hv;
      pose proof (nthN_Some_lt Hv) as Hl; cbn in Hl; destruct (two_cases Hl); subst d; cbn in Hv; injection Hv as <-; reflexivity.
  Qed.

  Lemma option_good k L n : good k L -> k_nv (option_code c k) = Some n -> good (option_code c k) (map VSome L ++ [VNone]).
  Proof.
    intros G Hn. change (cadd c (Some 1) (k_nv k) = Some n) in Hn. apply cadd_Some in Hn. destruct Hn as [x [y [Hx [Hy [-> Hn]]]]]. injection Hx as <-.
    rewrite (g_nv G) in Hy. injection Hy as <-.
    assert (HL : lenN (map VSome L ++ [VNone]) = 1 + lenN L) by (rewrite lenN_app, lenN_map; change (lenN [VNone]) with 1; lia).
    assert (Hcase : forall d v, nthN (map VSome L ++ [VNone]) d = Some v ->
              (d < lenN L /\ exists w, v = VSome w /\ nthN L d = Some w) \/ (d = lenN L /\ v = VNone)).
    { intros d v. rewrite nthN_app, lenN_map. destruct (N.ltb_spec d (lenN L)) as [Hd|Hd]; intros Hv.
      - left. split; [exact Hd|]. rewrite nthN_map in Hv. destruct (nthN L d) as [w|]; [|discriminate]. injection Hv as <-. eauto.
      - right. pose proof (nthN_Some_lt Hv) as Hl. cbn in Hl. assert (E : d - lenN L = 0) by lia. rewrite E in Hv. injection Hv as <-.
        split; [lia|reflexivity]. }
    constructor.
    - change (cadd c (Some 1) (k_nv k) = Some (lenN (map VSome L ++ [VNone]))). rewrite (g_nv G), HL. unfold cadd, cfit. rewrite (proj2 (N.leb_le _ _) Hn). reflexivity.
    - lia.
    - intros d v Hv. destruct (Hcase d v Hv) as [[Hd [w [-> Hw]]]|[-> ->]]; cbn.
      + apply (g_to G Hw).
      + rewrite (good_num G). reflexivity.
    - intros d v Hv. cbn. rewrite (good_num G). destruct (Hcase d v Hv) as [[Hd [w [-> Hw]]]|[-> ->]].
      + destruct (N.eqb_spec d (lenN L)); [lia|]. rewrite (g_from G Hw). reflexivity.
      + rewrite N.eqb_refl. reflexivity.
  Qed.

  Lemma result_good k s L R n : good k L -> good s R -> k_nv (result_code c k s) = Some n ->
    good (result_code c k s) (map VOk L ++ map VErr R).
  Proof.
    intros G G' Hn. change (cadd c (k_nv k) (k_nv s) = Some n) in Hn. apply cadd_Some in Hn. destruct Hn as [x [y [Hx [Hy [-> Hn]]]]].
    rewrite (g_nv G) in Hx. injection Hx as <-. rewrite (g_nv G') in Hy. injection Hy as <-.
    assert (HL : lenN (map VOk L ++ map VErr R) = lenN L + lenN R) by (rewrite lenN_app, !lenN_map; lia).
    assert (Hcase : forall d v, nthN (map VOk L ++ map VErr R) d = Some v ->
              (d < lenN L /\ exists w, v = VOk w /\ nthN L d = Some w) \/
              (lenN L <= d /\ d < lenN L + lenN R /\ exists w, v = VErr w /\ nthN R (d - lenN L) = Some w)).
    { intros d v Hv. pose proof (nthN_Some_lt Hv) as Hl. rewrite HL in Hl. revert Hv. rewrite nthN_app, lenN_map.
      destruct (N.ltb_spec d (lenN L)) as [Hd|Hd]; intros Hv; rewrite nthN_map in Hv.
      - left. split; [exact Hd|]. destruct (nthN L d) as [w|]; [|discriminate]. injection Hv as <-. eauto.
      - right. destruct (nthN R (d - lenN L)) as [w|]; [|discriminate]. injection Hv as <-. eauto. }
    constructor.
    - change (cadd c (k_nv k) (k_nv s) = Some (lenN (map VOk L ++ map VErr R))). rewrite (g_nv G), (g_nv G'), HL. unfold cadd, cfit. rewrite (proj2 (N.leb_le _ _) Hn). reflexivity.
    - lia.
    - intros d v Hv. destruct (Hcase d v Hv) as [[Hd [w [-> Hw]]]|[Hd [Hd2 [w [-> Hw]]]]]; cbn.
      + apply (g_to G Hw).
      + rewrite (g_to G' Hw), (good_num G). cbn. rewrite uadd_fit by lia. f_equal. lia.
    - intros d v Hv. cbn. rewrite (good_num G). destruct (Hcase d v Hv) as [[Hd [w [-> Hw]]]|[Hd [Hd2 [w [-> Hw]]]]].
      + rewrite (proj2 (N.ltb_lt _ _) Hd), (g_from G Hw). reflexivity.
      + rewrite (proj2 (N.ltb_ge _ _) Hd), usub_fit by exact Hd. cbn. rewrite (g_from G' Hw). reflexivity.
  Qed.

  (** sequences of implementations *)
  Definition goods (ks : list code) (Ls : list (list val)) : Prop := Forall2 good ks Ls.
  Lemma goods_nums ks Ls : goods ks Ls -> map num_variants ks = map (@lenN val) Ls.
  Proof. intros H. induction H as [|k L ks Ls G H IH]; [reflexivity|]. cbn. rewrite IH, (good_num G). reflexivity. Qed.
  Lemma goods_nv ks Ls : goods ks Ls -> map k_nv ks = map (fun L => Some (lenN L)) Ls.
  Proof. intros H. induction H as [|k L ks Ls G H IH]; [reflexivity|]. cbn. rewrite IH, (g_nv G). reflexivity. Qed.

  (** tuples; the list of implementations is reversed *)
  Lemma tuple_nv_Some Ls : forall ks n, goods ks Ls -> tuple_nv c ks = Some n -> n = prod (map (@lenN val) Ls) /\ n <= usize_max c.
  Proof.
    pose proof (usize_ge1 Hbits) as Hu.
    induction Ls as [|L Ls IH]; intros ks n H Hn; inversion H as [|k ? ks' ? G1 G2]; subst.
    - cbn in Hn. injection Hn as <-. cbn. split; [reflexivity|lia].
    - destruct ks' as [|k2 l].
      + inversion G2; subst. cbn in Hn. rewrite (g_nv G1) in Hn. injection Hn as <-. cbn [map prod].
        pose proof (g_fit G1). split; [lia|assumption].
      + change (cmul c (tuple_nv c (k2 :: l)) (k_nv k) = Some n) in Hn.
        apply cmul_Some in Hn. destruct Hn as [a [b [Ha [Hb [-> Hn]]]]]. rewrite (g_nv G1) in Hb. injection Hb as <-.
        destruct (IH _ _ G2 Ha) as [-> _]. cbn [map prod]. split; [lia|exact Hn].
  Qed.
  Lemma pick_length Ls ds vs : pick Ls ds vs -> length Ls = length ds /\ length Ls = length vs.
  Proof. clear Hbits. intros H. induction H as [|L Ls d ds v vs Hv H [I1 I2]]; cbn; lia. Qed.
  Lemma pick_app Ls1 ds1 vs1 Ls2 ds2 vs2 : pick Ls1 ds1 vs1 -> pick Ls2 ds2 vs2 -> pick (Ls1 ++ Ls2) (ds1 ++ ds2) (vs1 ++ vs2).
  Proof. intros H1 H2. induction H1; cbn; [exact H2|]. constructor; assumption. Qed.
  Lemma pick_rev Ls ds vs : pick Ls ds vs -> pick (rev Ls) (rev ds) (rev vs).
  Proof. intros H. induction H as [|L Ls d ds v vs Hv H IH]; [constructor|]. cbn. apply pick_app; [exact IH|]. constructor; [exact Hv|constructor]. Qed.
  Lemma tuple_ok Ls ds vs : pick Ls ds vs -> forall ks n, goods ks Ls -> tuple_nv c ks = Some n ->
    tuple_to c ks vs = Ret (mix (rev (map (@lenN val) Ls)) (rev ds)) /\
    tuple_from c ks (mix (rev (map (@lenN val) Ls)) (rev ds)) = Ret vs.
  Proof.
    intros H. induction H as [|L Ls d ds v vs Hv H IH]; intros ks n Hg Hn; inversion Hg as [|k ? ks' ? G1 G2]; subst; [split; reflexivity|].
    cbn [tuple_to tuple_from map rev].
    destruct ks' as [|k2 ks2].
    - inversion G2; subst. inversion H; subst. cbn [rev app map mix]. rewrite N.mul_0_r, N.add_0_r.
      rewrite (g_to G1 Hv), (g_from G1 Hv). split; reflexivity.
    - set (ks' := k2 :: ks2) in *.
      assert (Hv2 : match vs with [] => False | _ => True end).
      { apply Forall2_length in G2. destruct (pick_length H) as [_ Hl]. rewrite <- G2 in Hl. destruct vs; [discriminate|exact I]. }
      change (tuple_nv c (k :: ks')) with (cmul c (tuple_nv c ks') (k_nv k)) in Hn.
      apply cmul_Some in Hn. destruct Hn as [a [b [Ha [Hb [-> Hn]]]]].
      destruct (IH _ _ G2 Ha) as [I1 I2]. destruct (tuple_nv_Some G2 Ha) as [Ea _].
      assert (Enum : tuple_num c ks' = a) by (unfold tuple_num; rewrite Ha; reflexivity).
      rewrite (g_nv G1) in Hb. injection Hb as <-. rewrite Enum.
      pose proof (pick_digits H) as Hdig. pose proof (pick_digits (pick_rev H)) as Hdig'.
      rewrite map_rev in Hdig'. pose proof (mix_lt Hdig') as Hlt.
      assert (Eprod : prod (rev (map (@lenN val) Ls)) = a).
      { rewrite Ea. clear. induction (map (@lenN val) Ls) as [|x l IHl]; [reflexivity|]. cbn [rev prod]. rewrite prod_app, IHl. cbn [prod]. lia. }
      assert (Elen : length (rev (map (@lenN val) Ls)) = length (rev ds)).
      { rewrite !rev_length, map_length. apply (pick_length H). }
      rewrite mix_app by exact Elen. rewrite Eprod in *. cbn [mix]. rewrite N.mul_0_r, N.add_0_r.
      set (m := mix (rev (map (@lenN val) Ls)) (rev ds)) in *.
      pose proof (nthN_Some_lt Hv) as Hdl.
      split.
      + destruct vs as [|v2 vs2]; [contradiction|]. set (vs := v2 :: vs2) in *.
        change (tuple_to c (k :: ks') (v :: vs)) with
          (let! a := tuple_to c ks' vs in let! b := k_to k v in let! m := umul c b (tuple_num c ks') in uadd c a m).
        rewrite I1. cbn [obind]. rewrite (g_to G1 Hv). cbn [obind]. try rewrite Enum; rewrite umul_fit by nia. cbn [obind].
        rewrite uadd_fit by nia. f_equal. lia.
      + change (tuple_from c (k :: ks') (m + a * d)) with
          (let! r := urem (m + a * d) (tuple_num c ks') in let! vs := tuple_from c ks' r in
           let! q := udiv (m + a * d) (tuple_num c ks') in let! v := k_from k q in Ret (v :: vs)).
        rewrite urem_fit by lia. cbn [obind].
        rewrite (N.mul_comm a d), N.mod_add, N.mod_small by lia. rewrite I2. cbn [obind].
        rewrite udiv_fit by lia. cbn [obind]. rewrite N.div_add, N.div_small by lia. rewrite N.add_0_l, (g_from G1 Hv). reflexivity.
  Qed.
  Lemma goods_rev ks Ls : goods ks Ls -> goods (rev ks) (rev Ls).
  Proof. intros H. induction H as [|k L ks Ls G H IH]; [constructor|]. cbn. apply Forall2_app; [exact IH|]. constructor; [exact G|constructor]. Qed.
  Lemma seq_pick_map Ls d v : nthN (map VSeq (all_seqs Ls)) d = Some v ->
    exists vs ds, v = VSeq vs /\ pick Ls ds vs /\ d = mix (map (@lenN val) Ls) ds.
  Proof.
    rewrite nthN_map. destruct (nthN (all_seqs Ls) d) as [vs|] eqn:Hs; [|discriminate]. intros H. injection H as <-.
    apply seqs_pick in Hs. destruct Hs as [ds [Hp Hd]]. eauto.
  Qed.
  Lemma tuple_good ks Ls n : goods ks Ls -> k_nv (tuple_code c ks) = Some n -> good (tuple_code c ks) (map VSeq (all_seqs Ls)).
  Proof.
    intros G Hn. cbn in Hn. destruct (Nat.leb (length ks) 32) eqn:E32; [|discriminate].
    destruct (tuple_nv_Some (goods_rev G) Hn) as [En Hfit].
    assert (Ep : n = prod (map (@lenN val) Ls)).
    { rewrite En, map_rev. clear. induction (map (@lenN val) Ls) as [|x l IHl]; [reflexivity|]. cbn [rev prod]. rewrite prod_app, IHl. cbn [prod]. lia. }
    assert (HL : lenN (map VSeq (all_seqs Ls)) = n) by (rewrite lenN_map, len_seqs; auto).
    constructor.
    - cbn. rewrite E32, HL. exact Hn.
    - lia.
    - intros d v Hv. apply seq_pick_map in Hv. destruct Hv as [vs [ds [-> [Hp ->]]]]. cbn.
      destruct (tuple_ok (pick_rev Hp) (goods_rev G) Hn) as [I1 _]. rewrite I1, map_rev, !rev_involutive. reflexivity.
    - intros d v Hv. apply seq_pick_map in Hv. destruct Hv as [vs [ds [-> [Hp ->]]]]. cbn.
      destruct (tuple_ok (pick_rev Hp) (goods_rev G) Hn) as [_ I2]. rewrite map_rev, !rev_involutive in I2. rewrite I2.
      cbn. rewrite rev_involutive. reflexivity.
  Qed.

  (** fields of a struct or of a variant *)
  Lemma mul_all_ok l : forall acc, Forall (fun n => 1 <= n) l -> acc * prod l <= usize_max c -> mul_all c acc l = Ret (acc * prod l).
  Proof.
    induction l as [|n l IH]; intros acc Hp Hf; cbn [mul_all prod] in *; [f_equal; lia|].
    inversion Hp as [|? ? Hn Hp']; subst. pose proof (prod_pos Hp'). rewrite umul_fit by nia. cbn [obind]. rewrite IH; [f_equal; lia|exact Hp'|nia].
  Qed.
  Lemma product_ok nums i : Forall (fun n => 1 <= n) nums -> prod nums <= usize_max c -> product c nums i = Ret (prod (firstn i nums)).
  Proof.
    intros Hp Hf. unfold product. rewrite <- (firstn_skipn i nums) in Hp, Hf. rewrite prod_app in Hf. apply Forall_app in Hp.
    destruct Hp as [Hp1 Hp2]. pose proof (prod_pos Hp2) as H2. destruct (firstn i nums) as [|n l]; [reflexivity|].
    cbn [prod] in *. inversion Hp1; subst. apply mul_all_ok; [assumption|nia].
  Qed.
  Lemma cmul_fold_Some l : forall a n, fold_left (cmul c) l a = Some n -> exists x ns, a = Some x /\ l = map (@Some N) ns /\ n = x * prod ns /\ (n <= usize_max c \/ ns = []).
  Proof.
    induction l as [|b l IH]; intros a n H; cbn in H.
    - exists n, []. cbn. split; [exact H|]. split; [reflexivity|]. split; [lia|auto].
    - apply IH in H. destruct H as [x [ns [Hx [-> [-> Hf]]]]]. apply cmul_Some in Hx. destruct Hx as [x0 [y [-> [-> [-> Hf2]]]]].
      exists x0, (y :: ns). cbn [map prod]. split; [reflexivity|]. split; [reflexivity|]. split; [lia|].
      left. destruct Hf as [Hf| ->]; [exact Hf|]. cbn [prod]. lia.
  Qed.
  Lemma map_Some_inj (l1 l2 : list N) : map (@Some N) l1 = map (@Some N) l2 -> l1 = l2.
  Proof. revert l2. induction l1 as [|x l1 IH]; intros [|y l2] H; try discriminate; [reflexivity|]. injection H as -> H. rewrite (IH _ H). reflexivity. Qed.
  Lemma total_nv_Some ks Ls n : goods ks Ls -> total_nv c ks = Some n -> n = prod (map (@lenN val) Ls) /\ n <= usize_max c.
  Proof.
    pose proof (usize_ge1 Hbits) as Hu.
    intros H Hn. destruct H as [|k L ks Ls G H]; cbn in Hn; [injection Hn as <-; cbn; split; [reflexivity|lia]|].
    apply cmul_fold_Some in Hn. destruct Hn as [x [ns [Hx [Hl [-> Hf]]]]]. rewrite (g_nv G) in Hx. injection Hx as <-.
    rewrite (goods_nv H) in Hl. rewrite <- (map_map (@lenN val) (@Some N)) in Hl. apply map_Some_inj in Hl. subst ns.
    cbn [map prod]. split; [reflexivity|]. destruct Hf as [Hf|Hf]; [exact Hf|]. rewrite Hf. cbn. pose proof (g_fit G). lia.
  Qed.

  Lemma to_fields_ok Ls2 ds2 vs2 : pick Ls2 ds2 vs2 -> forall ks2 Ls1 acc, goods ks2 Ls2 ->
    let nums := map (@lenN val) (Ls1 ++ Ls2) in
    Forall (fun n => 1 <= n) nums -> prod nums <= usize_max c ->
    acc + prod (map (@lenN val) Ls1) * mix (map (@lenN val) Ls2) ds2 <= usize_max c ->
    to_fields c nums (length Ls1) acc ks2 vs2 = Ret (acc + prod (map (@lenN val) Ls1) * mix (map (@lenN val) Ls2) ds2).
  Proof.
    intros H. induction H as [|L Ls d ds v vs Hv H IH]; intros ks2 Ls1 acc Hg nums Hpos Hfit Hacc;
      inversion Hg as [|k ? ks' ? G1 G2]; subst; cbn [to_fields map mix] in *.
    - f_equal. lia.
    - rewrite product_ok by assumption. cbn [obind].
      assert (Ef : firstn (length Ls1) nums = map (@lenN val) Ls1).
      { unfold nums. rewrite map_app, firstn_app, firstn_all2 by (rewrite map_length; lia).
        rewrite map_length, Nat.sub_diag. cbn. apply app_nil_r. }
      rewrite Ef, (g_to G1 Hv). cbn [obind]. set (p := prod (map (@lenN val) Ls1)) in *. set (m := mix (map (@lenN val) Ls) ds) in *.
      assert (H1 : p * d <= p * (d + lenN L * m)) by (apply N.mul_le_mono_l; lia).
      rewrite umul_fit by lia. cbn [obind]. rewrite uadd_fit by lia. cbn [obind].
      specialize (IH ks' (Ls1 ++ [L]) (acc + p * d) G2). cbv zeta in IH.
      rewrite <- app_assoc in IH. cbn [app] in IH. rewrite app_length in IH. cbn [length] in IH. rewrite Nat.add_1_r in IH.
      assert (EP : prod (map (@lenN val) (Ls1 ++ [L])) = p * lenN L) by (rewrite map_app, prod_app; cbn [map prod]; fold p; lia).
      rewrite EP in IH. fold m in IH. fold nums in IH.
      rewrite IH; [f_equal; lia|exact Hpos|exact Hfit|lia].
  Qed.
  Lemma from_fields_ok Ls2 ds2 vs2 : pick Ls2 ds2 vs2 -> forall ks2 Ls1 low, goods ks2 Ls2 ->
    let nums := map (@lenN val) (Ls1 ++ Ls2) in
    Forall (fun n => 1 <= n) nums -> prod nums <= usize_max c -> low < prod (map (@lenN val) Ls1) ->
    from_fields c nums (length Ls1) (low + prod (map (@lenN val) Ls1) * mix (map (@lenN val) Ls2) ds2) ks2 = Ret vs2.
  Proof.
    intros H. induction H as [|L Ls d ds v vs Hv H IH]; intros ks2 Ls1 low Hg nums Hpos Hfit Hlow;
      inversion Hg as [|k ? ks' ? G1 G2]; subst; cbn [from_fields map mix] in *; [reflexivity|].
    rewrite product_ok by assumption. cbn [obind].
    assert (Ef : firstn (length Ls1) nums = map (@lenN val) Ls1).
    { unfold nums. rewrite map_app, firstn_app, firstn_all2 by (rewrite map_length; lia).
      rewrite map_length, Nat.sub_diag. cbn. apply app_nil_r. }
    rewrite Ef. set (p := prod (map (@lenN val) Ls1)) in *. set (m := mix (map (@lenN val) Ls) ds) in *.
    pose proof (nthN_Some_lt Hv) as Hd.
    rewrite udiv_fit by lia. cbn [obind].
    assert (Hq : (low + p * (d + lenN L * m)) / p = d + lenN L * m).
    { rewrite (N.mul_comm p), N.div_add, N.div_small by lia. lia. }
    rewrite Hq.
    assert (Hr : (match ks' with [] => Ret (d + lenN L * m) | _ => urem (d + lenN L * m) (num_variants k) end) = Ret d).
    { destruct ks' as [|k2 ks'].
      - inversion G2; subst. inversion H; subst. subst m. cbn. f_equal. lia.
      - rewrite (good_num G1), urem_fit by lia. rewrite (N.mul_comm (lenN L)), N.mod_add, N.mod_small by lia. reflexivity. }
    rewrite Hr. cbn [obind]. rewrite (g_from G1 Hv). cbn [obind].
    specialize (IH ks' (Ls1 ++ [L]) (low + p * d) G2). cbv zeta in IH.
    rewrite <- app_assoc in IH. cbn [app] in IH. rewrite app_length in IH. cbn [length] in IH. rewrite Nat.add_1_r in IH.
    assert (EP : prod (map (@lenN val) (Ls1 ++ [L])) = p * lenN L) by (rewrite map_app, prod_app; cbn [map prod]; fold p; lia).
      rewrite EP in IH. fold m in IH. fold nums in IH.
    replace (low + p * (d + lenN L * m)) with (low + p * d + p * lenN L * m) by lia.
    rewrite IH; [reflexivity|exact Hpos|exact Hfit|].
    assert (p * d + p <= p * lenN L) by (rewrite <- N.mul_succ_r; apply N.mul_le_mono_l; lia). lia.
  Qed.

  (** all the fields of a struct or variant, with an offset *)
  Lemma fields_ok ks Ls ds vs off : goods ks Ls -> pick Ls ds vs -> prod (map (@lenN val) Ls) <= usize_max c ->
    off + mix (map (@lenN val) Ls) ds <= usize_max c ->
    to_fields c (map num_variants ks) 0 off ks vs = Ret (off + mix (map (@lenN val) Ls) ds) /\
    from_fields c (map num_variants ks) 0 (mix (map (@lenN val) Ls) ds) ks = Ret vs.
  Proof.
    intros G Hp Hf Ho. rewrite (goods_nums G). pose proof (digits_pos (pick_digits Hp)) as Hpos.
    pose proof (@to_fields_ok _ _ _ Hp ks [] off G) as I1. cbn [app map length prod] in I1. rewrite N.mul_1_l in I1.
    pose proof (@from_fields_ok _ _ _ Hp ks [] 0 G) as I2. cbn [app map length prod] in I2. rewrite N.mul_1_l, N.add_0_l in I2.
    split; [apply I1; assumption|apply I2; [assumption|assumption|lia]].
  Qed.

  Lemma struct_good ks Ls n : goods ks Ls -> k_nv (struct_code c ks) = Some n -> good (struct_code c ks) (map VSeq (all_seqs Ls)).
  Proof.
    pose proof (usize_ge1 Hbits) as Hu.
    intros G Hn. destruct G as [|k L ks Ls G0 G].
    - constructor; [reflexivity|cbn; lia|..]; intros d v Hv;
        pose proof (nthN_Some_lt Hv) as Hl; cbn in Hl; assert (d = 0) by lia; subst d; cbn in Hv; injection Hv as <-; reflexivity.
    - assert (GG : goods (k :: ks) (L :: Ls)) by (constructor; assumption).
      change (k_nv (struct_code c (k :: ks))) with (total_nv c (k :: ks)) in Hn.
      destruct (total_nv_Some GG Hn) as [En Hfit].
      assert (HL : lenN (map VSeq (all_seqs (L :: Ls))) = n) by (rewrite lenN_map, len_seqs; auto).
      constructor.
      + rewrite HL. exact Hn.
      + lia.
      + intros d v Hv. apply seq_pick_map in Hv. destruct Hv as [vs [ds [-> [Hp ->]]]].
        pose proof (mix_lt (pick_digits Hp)).
        destruct (@fields_ok _ _ _ _ 0 GG Hp) as [I1 _]; [lia|lia|]. exact I1.
      + intros d v Hv. apply seq_pick_map in Hv. destruct Hv as [vs [ds [-> [Hp ->]]]].
        pose proof (mix_lt (pick_digits Hp)).
        destruct (@fields_ok _ _ _ _ 0 GG Hp) as [_ I2]; [lia|lia|]. unfold struct_code, k_from. rewrite I2. reflexivity.
  Qed.

  (** enums *)
  Lemma c_enum_values n k : unit_values k (repeat None n) = map (fun i => VVariant i []) (seq k n) /\ data_values k (repeat None n) = [].
  Proof. revert k. induction n as [|n IH]; intros k; [split; reflexivity|]. cbn. destruct (IH (S k)) as [-> ->]. split; reflexivity. Qed.
  Lemma nthN_seq n d x : nthN (seq 0 n) d = Some x -> x = N.to_nat d /\ d < N.of_nat n.
  Proof. clear Hbits.
    unfold nthN. intros H. assert (Hl : (N.to_nat d < length (seq 0 n))%nat) by (apply nth_error_Some; congruence).
    rewrite seq_length in Hl. split; [|lia]. apply (nth_error_nth _ _ O) in H. rewrite seq_nth in H by exact Hl. lia.
  Qed.
  Lemma c_enum_good n m : k_nv (c_enum_code c n) = Some m -> good (c_enum_code c n) (map (fun i => VVariant i []) (seq 0 n)).
  Proof.
    intros Hm. cbn in Hm. destruct (cfit_Some Hm) as [-> Hfit].
    assert (HL : lenN (map (fun i => VVariant i []) (seq 0 n)) = N.of_nat n) by (rewrite lenN_map; unfold lenN; rewrite seq_length; reflexivity).
    constructor.
    - rewrite HL. exact Hm.
    - lia.
    - intros d v Hv. rewrite nthN_map in Hv. destruct (nthN (seq 0 n) d) as [i|] eqn:Hi; [|discriminate]. injection Hv as <-.
      apply nthN_seq in Hi. destruct Hi as [-> Hd]. unfold c_enum_code, k_to. rewrite (proj2 (Nat.ltb_lt _ _)) by lia. f_equal. lia.
    - intros d v Hv. rewrite nthN_map in Hv. destruct (nthN (seq 0 n) d) as [i|] eqn:Hi; [|discriminate]. injection Hv as <-.
      apply nthN_seq in Hi. destruct Hi as [-> Hd]. cbn. rewrite (proj2 (N.ltb_lt _ _) Hd). reflexivity.
  Qed.

  (** a variant: the implementations of its fields realise the lists *)
  Definition vgood (a : option (list code)) (b : option (list (list val))) : Prop :=
    match a, b with
    | None, None => True
    | Some ks, Some Ls => goods ks Ls
    | _, _ => False
    end.
  Lemma unit_ids_values ks vs : Forall2 vgood ks vs -> forall k, unit_values k vs = map (fun i => VVariant i []) (unit_ids k ks).
  Proof.
    intros H. induction H as [|a b ks vs Hab H IH]; intros k; [reflexivity|].
    destruct a, b; cbn in *; try contradiction; rewrite IH; reflexivity.
  Qed.
  Lemma unit_ids_ge vs : forall k x, In x (unit_ids k vs) -> (k <= x)%nat.
  Proof. clear Hbits.
    induction vs as [|v vs IH]; intros k x H; [contradiction|]. destruct v; cbn in H.
    - apply IH in H. lia.
    - destruct H as [<-|H]; [lia|]. apply IH in H. lia.
  Qed.
  Lemma data_ids_ge vs : forall k x, In x (map fst (data_ids k vs)) -> (k <= x)%nat.
  Proof. clear Hbits.
    induction vs as [|v vs IH]; intros k x H; [contradiction|]. destruct v; cbn in H.
    - destruct H as [<-|H]; [lia|]. apply IH in H. lia.
    - apply IH in H. lia.
  Qed.
  Lemma ids_disjoint vs : forall k x, In x (unit_ids k vs) -> ~ In x (map fst (data_ids k vs)).
  Proof. clear Hbits.
    induction vs as [|v vs IH]; intros k x H; [contradiction|]. destruct v; cbn in *.
    - intros [->|G]; [apply unit_ids_ge in H; lia|]. exact (IH _ _ H G).
    - destruct H as [->|H]; [intros G; apply data_ids_ge in G; lia|]. apply IH. exact H.
  Qed.
  Lemma position_nth l : NoDup l -> forall d k, nthN l d = Some k -> position k l = Some d.
  Proof. clear Hbits.
    intros H. induction H as [|x l Hx H IH]; intros d k Hd; [unfold nthN in Hd; rewrite nth_error_nil in Hd; discriminate|].
    cbn. destruct (N.eq_dec d 0) as [->|Hd0].
    - cbn in Hd. injection Hd as ->. rewrite Nat.eqb_refl. reflexivity.
    - rewrite nthN_cons_S in Hd by lia. destruct (Nat.eqb_spec x k) as [->|Hne].
      + exfalso. apply Hx. eapply nth_error_In. exact Hd.
      + rewrite (IH _ _ Hd). cbn. f_equal. lia.
  Qed.
  Lemma position_None l k : ~ In k l -> position k l = None.
  Proof.
    induction l as [|x l IH]; intros H; [reflexivity|]. cbn. destruct (Nat.eqb_spec x k) as [->|Hne]; [exfalso; apply H; left; reflexivity|].
    rewrite IH; [reflexivity|]. intros G. apply H. right. exact G.
  Qed.
  Lemma unit_ids_NoDup vs : forall k, NoDup (unit_ids k vs).
  Proof. clear Hbits.
    induction vs as [|v vs IH]; intros k; [constructor|]. destruct v; cbn; [apply IH|]. constructor; [|apply IH].
    intros H. apply unit_ids_ge in H. lia.
  Qed.

  (** arms with data, as pairs (variant, implementations) and (variant, lists) *)
  Definition agood (a : nat * list code) (b : nat * list (list val)) : Prop := fst a = fst b /\ snd a <> [] /\ goods (snd a) (snd b).
  Fixpoint data_lists (k : nat) (vs : list (option (list (list val)))) : list (nat * list (list val)) :=
    match vs with
    | [] => []
    | None :: vs' => data_lists (S k) vs'
    | Some Ls :: vs' => (k, Ls) :: data_lists (S k) vs'
    end.
  Definition arm_values (bs : list (nat * list (list val))) : list val :=
    flat_map (fun b => map (VVariant (fst b)) (all_seqs (snd b))) bs.
  Lemma data_values_arms vs : forall k, data_values k vs = arm_values (data_lists k vs).
  Proof. induction vs as [|[Ls|] vs IH]; intros k; cbn; [reflexivity| |apply IH]. rewrite IH. reflexivity. Qed.
  Lemma data_ids_lists ks vs : Forall2 vgood ks vs -> forall k, Forall2 (fun a b => fst a = fst b /\ goods (snd a) (snd b)) (data_ids k ks) (data_lists k vs).
  Proof.
    intros H. induction H as [|a b ks vs Hab H IH]; intros k; [constructor|].
    destruct a, b; cbn in *; try contradiction; [|apply IH]. constructor; [auto|apply IH].
  Qed.
  Lemma data_lists_ge vs : forall k x, In x (map fst (data_lists k vs)) -> (k <= x)%nat.
  Proof. clear Hbits.
    induction vs as [|v vs IH]; intros k x H; [contradiction|]. destruct v; cbn in H.
    - destruct H as [<-|H]; [lia|]. apply IH in H. lia.
    - apply IH in H. lia.
  Qed.
  Lemma data_lists_NoDup vs : forall k, NoDup (map fst (data_lists k vs)).
  Proof. clear Hbits.
    induction vs as [|v vs IH]; intros k; [constructor|]. destruct v; cbn; [|apply IH]. constructor; [|apply IH].
    intros H. apply data_lists_ge in H. lia.
  Qed.

  Lemma cadd_fold_Some l : forall a n, fold_left (cadd c) l a = Some n -> exists x ns, a = Some x /\ l = map (@Some N) ns /\ n = x + fold_right N.add 0 ns /\ (n <= usize_max c \/ ns = []).
  Proof.
    induction l as [|b l IH]; intros a n H; cbn in H.
    - exists n, []. cbn. split; [exact H|]. split; [reflexivity|]. split; [lia|auto].
    - apply IH in H. destruct H as [x [ns [Hx [-> [-> Hf]]]]]. apply cadd_Some in Hx. destruct Hx as [x0 [y [-> [-> [-> Hf2]]]]].
      exists x0, (y :: ns). cbn [map fold_right]. split; [reflexivity|]. split; [reflexivity|]. split; [lia|].
      left. destruct Hf as [Hf| ->]; [exact Hf|]. cbn [fold_right]. lia.
  Qed.
  Lemma arm_nv_Some ks Ls n : goods ks Ls -> arm_nv c ks = Some n -> ks <> [] /\ n = prod (map (@lenN val) Ls) /\ n <= usize_max c.
  Proof.
    intros G Hn. destruct ks as [|k ks]; [discriminate|]. split; [discriminate|]. apply (total_nv_Some G). exact Hn.
  Qed.
  Definition arm_size (b : nat * list (list val)) : N := prod (map (@lenN val) (snd b)).
  Definition arms_size (bs : list (nat * list (list val))) : N := fold_right N.add 0 (map arm_size bs).
  Lemma len_arm_values bs : lenN (arm_values bs) = arms_size bs.
  Proof.
    unfold arm_values, arms_size. induction bs as [|b bs IH]; [reflexivity|]. cbn [flat_map map fold_right].
    rewrite lenN_app, lenN_map, len_seqs, IH. reflexivity.
  Qed.
  Lemma arms_nv_Some arms bs : Forall2 (fun a b => fst a = fst b /\ goods (snd a) (snd b)) arms bs -> forall ns,
    map (fun a => arm_nv c (snd a)) arms = map (@Some N) ns ->
    ns = map arm_size bs /\ Forall2 agood arms bs /\ Forall (fun b => arm_size b <= usize_max c) bs.
  Proof.
    intros H. induction H as [|a b arms bs [H1 H2] H IH]; intros [|n ns] Hn; cbn in Hn; try discriminate; [repeat constructor|].
    injection Hn as Hn1 Hn2. apply (arm_nv_Some H2) in Hn1. destruct Hn1 as [K1 [-> K2]]. destruct (IH _ Hn2) as [-> [I2 I3]].
    split; [reflexivity|]. split; constructor; try assumption. repeat split; assumption.
  Qed.

  (** the mixed product, when some list is empty, may not be computed by [product]: but an
      overflow is excluded by the constant having been computed *)
  Lemma mul_all_total ks : forall acc n, fold_left (cmul c) (map k_nv ks) (Some acc) = Some n -> mul_all c acc (map num_variants ks) = Ret n.
  Proof.
    induction ks as [|k ks IH]; intros acc n H; cbn [map fold_left mul_all] in H |- *; [congruence|].
    destruct (cmul c (Some acc) (k_nv k)) as [m|] eqn:Hm.
    - apply cmul_Some in Hm. destruct Hm as [x [y [Hx [Hy [-> Hf]]]]]. injection Hx as <-.
      unfold num_variants at 1. rewrite Hy, umul_fit by exact Hf. cbn. apply IH. exact H.
    - exfalso. apply cmul_fold_Some in H. destruct H as [x [ns [H _]]]. discriminate.
  Qed.
  Lemma arm_num_ok ks n : arm_nv c ks = Some n -> arm_num c ks = Ret n.
  Proof.
    intros H. unfold arm_num, product. destruct ks as [|k ks]; [discriminate|]. cbn in H.
    destruct (k_nv k) as [x|] eqn:Hx; [|apply cmul_fold_Some in H; destruct H as [y [ns [H _]]]; discriminate].
    cbn [map length firstn]. rewrite firstn_all2 by (rewrite map_length; lia).
    unfold num_variants at 1. rewrite Hx. apply mul_all_total. exact H.
  Qed.

  Lemma data_ok off arms bs : Forall2 agood arms bs -> NoDup (map fst bs) -> forall rh,
    Forall (fun a => exists n, arm_nv c (snd a) = Some n) arms ->
    off + rh + arms_size bs <= usize_max c ->
    forall d v, nthN (arm_values bs) d = Some v ->
      exists k vs, v = VVariant k vs /\ In k (map fst bs) /\
      data_to c off rh arms k vs = Ret (off + rh + d) /\ data_from c off rh arms (off + rh + d) = Ret v.
  Proof.
    intros H. induction H as [|a b arms bs Hab H IH]; intros Hnd rh Hnv Hfit d v Hv.
    - unfold nthN in Hv. cbn in Hv. rewrite nth_error_nil in Hv. discriminate.
    - destruct Hab as [K1 [K2 K3]]. inversion Hnd as [|? ? Hnotin Hnd']; subst. inversion Hnv as [|? ? [n Hn] Hnv']; subst.
      destruct (arm_nv_Some K3 Hn) as [_ [En Hnf]]. destruct a as [ka ks], b as [kb Ls]. cbn [fst snd] in *. subst ka.
      assert (Esz : arms_size ((kb, Ls) :: bs) = n + arms_size bs) by (unfold arms_size; cbn [map fold_right]; unfold arm_size at 1; cbn [snd]; lia).
      rewrite Esz in Hfit. change (arm_values ((kb, Ls) :: bs)) with (map (VVariant kb) (all_seqs Ls) ++ arm_values bs) in Hv.
      rewrite nthN_app, lenN_map, len_seqs, <- En in Hv. cbn [data_to data_from].
      rewrite (uadd_fit (a := off)) by lia. rewrite (arm_num_ok Hn). cbn [obind].
      rewrite (uadd_fit (a := rh)) by lia. cbn [obind]. rewrite (uadd_fit (a := off)) by lia. cbn [obind].
      destruct (N.ltb_spec d n) as [Hd|Hd].
      + rewrite nthN_map in Hv. destruct (nthN (all_seqs Ls) d) as [vs|] eqn:Hs; [|discriminate]. injection Hv as <-.
        apply seqs_pick in Hs. destruct Hs as [ds [Hp Ed]].
        exists kb, vs. split; [reflexivity|]. split; [left; reflexivity|]. rewrite Nat.eqb_refl.
        destruct (@fields_ok _ _ _ _ (off + rh) K3 Hp) as [I1 I2]; [lia|lia|]. rewrite <- Ed in I1, I2.
        split; [exact I1|].
        rewrite (proj2 (N.leb_le (off + rh) (off + rh + d))) by lia. rewrite (proj2 (N.ltb_lt (off + rh + d) (off + (rh + n)))) by lia.
        cbn [andb]. rewrite (usub_fit (b := off)) by lia. cbn [obind]. rewrite usub_fit by lia. cbn [obind].
        replace (off + rh + d - off - rh) with d by lia. rewrite I2. reflexivity.
      + destruct (IH Hnd' (rh + n) Hnv' ltac:(lia) _ _ Hv) as [k [vs [-> [Hin [I1 I2]]]]].
        exists k, vs. split; [reflexivity|]. split; [right; exact Hin|].
        destruct (Nat.eqb_spec kb k) as [->|Hne]; [contradiction|].
        replace (off + (rh + n) + (d - n)) with (off + rh + d) in I1, I2 by lia.
        split; [exact I1|]. rewrite (proj2 (N.ltb_ge (off + rh + d) (off + (rh + n)))) by lia. rewrite andb_false_r. exact I2.
  Qed.

  Lemma rusty_good ks vs n : Forall2 vgood ks vs -> k_nv (rusty_enum_code c ks) = Some n ->
    good (rusty_enum_code c ks) (unit_values 0 vs ++ data_values 0 vs).
  Proof.
    intros G Hn. pose proof Hn as Hn0. cbn in Hn. apply cadd_Some in Hn. destruct Hn as [x [y [Hx [Hy [-> Hfit]]]]]. injection Hy as <-.
    apply cadd_fold_Some in Hx. destruct Hx as [u [ns [Hu [Hns [-> _]]]]]. apply cfit_Some in Hu. destruct Hu as [-> _].
    pose proof (data_ids_lists G 0) as Ha.
    destruct (arms_nv_Some Ha Hns) as [-> [Harms _]].
    assert (Hnv : Forall (fun a => exists n, arm_nv c (snd a) = Some n) (data_ids 0 ks)).
    { rewrite Forall_forall. intros a Hin. apply (in_map (fun a => arm_nv c (snd a))) in Hin. rewrite Hns in Hin.
      apply in_map_iff in Hin. destruct Hin as [m [Hm _]]. eauto. }
    rewrite (unit_ids_values G), data_values_arms. set (us := unit_ids 0 ks) in *. set (bs := data_lists 0 vs) in *.
    fold (arms_size bs) in *.
    assert (HL : lenN (map (fun i => VVariant i []) us ++ arm_values bs) = lenN us + arms_size bs) by (rewrite lenN_app, lenN_map, len_arm_values; reflexivity).
    assert (Hdisj : forall k, In k (map fst bs) -> ~ In k us).
    { intros k Hk Hin. apply (ids_disjoint Hin). replace (map fst (data_ids 0 ks)) with (map fst bs); [exact Hk|].
      clear - Ha. subst bs. induction Ha as [|a b l l' [H1 _] H IH]; [reflexivity|]. cbn. rewrite H1, IH. reflexivity. }
    assert (Hcase : forall d v, nthN (map (fun i => VVariant i []) us ++ arm_values bs) d = Some v ->
       (exists k, nthN us d = Some k /\ v = VVariant k []) \/ (lenN us <= d /\ nthN (arm_values bs) (d - lenN us) = Some v)).
    { intros d v. rewrite nthN_app, lenN_map. destruct (N.ltb_spec d (lenN us)) as [Hd|Hd]; intros Hv; [left|right; auto].
      rewrite nthN_map in Hv. destruct (nthN us d) as [k|]; [|discriminate]. injection Hv as <-. eauto. }
    constructor.
    - rewrite Hn0, HL. f_equal. lia.
    - lia.
    - intros d v Hv. destruct (Hcase d v Hv) as [[k [Hk ->]]|[Hd Hv2]].
      + cbn. fold us. rewrite (position_nth (l := us) (unit_ids_NoDup ks 0) Hk). reflexivity.
      + destruct (@data_ok (lenN us) _ _ Harms (data_lists_NoDup vs 0) 0 Hnv ltac:(lia) _ _ Hv2) as [k [xs [-> [Hin [I1 _]]]]].
        cbn. fold us. rewrite (position_None (Hdisj _ Hin)). rewrite I1. f_equal. lia.
    - intros d v Hv. destruct (Hcase d v Hv) as [[k [Hk ->]]|[Hd Hv2]].
      + cbn. fold us. rewrite Hk. reflexivity.
      + destruct (@data_ok (lenN us) _ _ Harms (data_lists_NoDup vs 0) 0 Hnv ltac:(lia) _ _ Hv2) as [k [xs [-> [Hin [_ I2]]]]].
        cbn. fold us. destruct (nthN us d) as [k'|] eqn:Hk; [apply nthN_Some_lt in Hk; lia|].
        replace (lenN us + 0 + (d - lenN us)) with d in I2 by lia. exact I2.
  Qed.
  Lemma c_like_repeat ks vs : Forall2 vgood ks vs -> forallb (fun v => match v with None => true | Some _ => false end) ks = true -> vs = repeat None (length ks).
  Proof.
    intros H. induction H as [|a b ks vs Hab H IH]; intros Hall; [reflexivity|]. cbn in Hall. destruct a; [discriminate|].
    destruct b; [contradiction|]. cbn. rewrite IH by exact Hall. reflexivity.
  Qed.
  Lemma enum_good ks vs n : Forall2 vgood ks vs -> k_nv (enum_code c ks) = Some n -> good (enum_code c ks) (unit_values 0 vs ++ data_values 0 vs).
  Proof.
    intros G Hn. unfold enum_code in *. destruct (forallb _ ks) eqn:Hall.
    - rewrite (c_like_repeat G Hall). destruct (c_enum_values (length ks) 0) as [-> ->]. rewrite app_nil_r. apply (c_enum_good Hn).
    - apply (rusty_good G Hn).
  Qed.

  Lemma user_value_nil n x : user_value n [] x = (x <? n).
  Proof. unfold user_value. cbn. apply andb_true_r. Qed.
  Lemma user_good n m : k_nv (user_code c n []) = Some m -> good (user_code c n []) (map (fun i => VUser (N.of_nat i)) (seq 0 (N.to_nat n))).
  Proof.
    intros Hm. cbn in Hm. destruct (cfit_Some Hm) as [-> Hfit].
    assert (HL : lenN (map (fun i => VUser (N.of_nat i)) (seq 0 (N.to_nat n))) = n) by (rewrite lenN_map; unfold lenN; rewrite seq_length; lia).
    constructor.
    - rewrite HL. exact Hm.
    - lia.
    - intros d v Hv. rewrite nthN_map in Hv. destruct (nthN (seq 0 _) d) as [i|] eqn:Hi; [|discriminate]. injection Hv as <-.
      apply nthN_seq in Hi. destruct Hi as [-> Hd]. cbn. rewrite ?user_value_nil. rewrite N2Nat.id. rewrite ?user_value_nil. rewrite (proj2 (N.ltb_lt d n)) by lia. reflexivity.
    - intros d v Hv. rewrite nthN_map in Hv. destruct (nthN (seq 0 _) d) as [i|] eqn:Hi; [|discriminate]. injection Hv as <-.
      apply nthN_seq in Hi. destruct Hi as [-> Hd]. cbn. rewrite ?user_value_nil. rewrite N2Nat.id. rewrite ?user_value_nil. rewrite (proj2 (N.ltb_lt d n)) by lia. reflexivity.
  Qed.
End Good.

(** ** All types *)
Section TyInd.
  Variable Q : ty -> Prop.
  Hypothesis HUnit : Q TUnit.
  Hypothesis HBool : Q TBool.
  Hypothesis HOption : forall t, Q t -> Q (TOption t).
  Hypothesis HResult : forall t s, Q t -> Q s -> Q (TResult t s).
  Hypothesis HTuple : forall ts, Forall Q ts -> Q (TTuple ts).
  Hypothesis HArray : forall n t, Q t -> Q (TArray n t).
  Hypothesis HStruct : forall ts, Forall Q ts -> Q (TStruct ts).
  Hypothesis HEnum : forall vs, Forall (fun v => match v with None => True | Some ts => Forall Q ts end) vs -> Q (TEnum vs).
  Hypothesis HUser : forall n unused, Q (TUser n unused).
  Fixpoint ty_induction (t : ty) : Q t :=
    let list_ind := fix go (l : list ty) : Forall Q l :=
      match l with [] => Forall_nil _ | t :: l' => Forall_cons _ (ty_induction t) (go l') end in
    match t with
    | TUnit => HUnit
    | TBool => HBool
    | TOption t => HOption (ty_induction t)
    | TResult t s => HResult (ty_induction t) (ty_induction s)
    | TTuple ts => HTuple (list_ind ts)
    | TArray n t => HArray n (ty_induction t)
    | TStruct ts => HStruct (list_ind ts)
    | TEnum vs => HEnum ((fix go (l : list (option (list ty))) :=
        match l return Forall (fun v => match v with None => True | Some ts => Forall Q ts end) l with
        | [] => Forall_nil _
        | None :: l' => Forall_cons None I (go l')
        | Some ts :: l' => Forall_cons (Some ts) (list_ind ts) (go l')
        end) vs)
    | TUser n unused => HUser n unused
    end.
End TyInd.

Section AllTypes.
  Variable c : cfg.
  Hypothesis Hbits : 2 <= usize_bits c.

  Lemma tuple_nv_parts ks : forall n, tuple_nv c ks = Some n -> Forall (fun k => exists m, k_nv k = Some m) ks.
  Proof.
    induction ks as [|k ks IH]; intros n Hn; [constructor|]. cbn in Hn. destruct ks as [|k2 ks].
    - constructor; [eauto|constructor].
    - apply cmul_Some in Hn. destruct Hn as [x [y [Hx [Hy _]]]]. constructor; [eauto|]. exact (IH _ Hx).
  Qed.
  Lemma total_nv_parts ks n : total_nv c ks = Some n -> Forall (fun k => exists m, k_nv k = Some m) ks.
  Proof.
    destruct ks as [|k ks]; [intros _; apply Forall_nil|]. cbn [total_nv]. intros H. apply cmul_fold_Some in H. destruct H as [x [ns [Hx [Hl _]]]].
    constructor; [exists x; exact Hx|]. rewrite Forall_forall. intros k' Hin. apply (in_map k_nv) in Hin. rewrite Hl in Hin.
    apply in_map_iff in Hin. destruct Hin as [m [Hm _]]. exists m. symmetry. exact Hm. all: exact Hbits.
  Qed.
  Lemma goods_map ts : Forall (fun t => no_holes t = true -> forall n, num_variants_of c t = Some n -> good c (code_of c t) (enumerate t)) ts ->
    forallb no_holes ts = true ->
    Forall (fun k => exists m, k_nv k = Some m) (map (code_of c) ts) -> goods c (map (code_of c) ts) (map enumerate ts).
  Proof.
    intros H. induction H as [|t ts Ht H IH]; intros Hh Hp; [constructor|]. cbn in Hh, Hp. apply andb_true_iff in Hh. destruct Hh as [Hh1 Hh2].
    inversion Hp as [|? ? [m Hm] Hp']; subst. constructor; [exact (Ht Hh1 _ Hm)|]. apply IH; assumption.
  Qed.

  Theorem code_good t : no_holes t = true -> forall n, num_variants_of c t = Some n -> good c (code_of c t) (enumerate t).
  Proof.
    unfold num_variants_of. induction t using ty_induction; intros Hh m Hm; cbn [code_of enumerate no_holes] in *.
    - apply (unit_good Hbits).
    - apply (bool_good Hbits).
    - pose proof Hm as Hm0. change (cadd c (Some 1) (k_nv (code_of c t)) = Some m) in Hm. apply cadd_Some in Hm. destruct Hm as [x [y [_ [Hy _]]]].
      apply (option_good Hbits (IHt Hh _ Hy) Hm0).
    - pose proof Hm as Hm0. change (cadd c (k_nv (code_of c t1)) (k_nv (code_of c t2)) = Some m) in Hm. apply cadd_Some in Hm. destruct Hm as [x [y [Hx [Hy _]]]].
      apply andb_true_iff in Hh. destruct Hh as [Hh1 Hh2]. apply (result_good Hbits (IHt1 Hh1 _ Hx) (IHt2 Hh2 _ Hy) Hm0).
    - pose proof Hm as Hm0. cbn in Hm. destruct (Nat.leb _ 32); [|discriminate]. apply tuple_nv_parts in Hm. apply Forall_rev in Hm.
      rewrite rev_involutive in Hm. apply (tuple_good Hbits (goods_map H Hh Hm) Hm0).
    - pose proof Hm as Hm0. cbn in Hm. destruct (Nat.leb _ 32); [|discriminate]. apply tuple_nv_parts in Hm. apply Forall_rev in Hm.
      rewrite rev_involutive in Hm. refine (tuple_good Hbits (ks := repeat (code_of c t) n) (Ls := repeat (enumerate t) n) _ Hm0).
      clear Hm0. induction n as [|n IHn]; [constructor|]. cbn in Hm |- *. inversion Hm as [|? ? [k Hk] Hm']; subst. constructor; [exact (IHt Hh _ Hk)|]. apply IHn. exact Hm'.
    - pose proof Hm as Hm0. destruct ts as [|t ts].
      + exact (struct_good Hbits (ks := []) (Ls := []) (Forall2_nil _) Hm0).
      + change (k_nv (struct_code c (map (code_of c) (t :: ts)))) with (total_nv c (map (code_of c) (t :: ts))) in Hm.
        apply total_nv_parts in Hm. apply (struct_good Hbits (goods_map H Hh Hm) Hm0).
    - refine (enum_good Hbits (n := m) _ Hm).
      assert (Hparts : Forall (fun v => match v with None => True | Some ks => Forall (fun k => exists m, k_nv k = Some m) ks end) (map (option_map (map (code_of c))) vs)).
      { clear H Hh. unfold enum_code in Hm. destruct (forallb _ _) eqn:Hall.
        - rewrite forallb_forall in Hall. rewrite Forall_forall. intros v Hv. specialize (Hall v Hv). destruct v; [discriminate|exact I].
        - cbn in Hm. apply cadd_Some in Hm. destruct Hm as [x [y [Hx _]]]. apply (cadd_fold_Some Hbits) in Hx. destruct Hx as [u [ns [_ [Hns _]]]].
          revert ns Hns. generalize (map (option_map (map (code_of c))) vs) as ws, 0%nat as k0. clear -Hbits.
          induction ws as [|[ks|] ws IH]; intros k0 ns Hns; [constructor| |].
          + cbn in Hns. destruct ns as [|n ns]; [discriminate|]. injection Hns as Hn Hns. constructor; [|exact (IH _ _ Hns)].
            destruct ks as [|k ks]; [discriminate|]. exact (total_nv_parts Hn).
          + constructor; [exact I|]. exact (IH _ _ Hns). }
      clear Hm. induction H as [|v vs Hv H IH]; [constructor|]. cbn in Hparts, Hh |- *. apply andb_true_iff in Hh. destruct Hh as [Hh1 Hh2]. inversion Hparts as [|? ? Hp Hp']; subst.
      constructor; [|apply IH; assumption]. destruct v as [ts|]; cbn in *; [|exact I]. apply (goods_map Hv Hh1 Hp).
    - destruct unused; [|discriminate]. apply (user_good Hbits Hm).
  Qed.
End AllTypes.

(** ** Typing: the enumeration lists exactly the values of the type *)
Lemma in_seqs Ls vs : In vs (all_seqs Ls) <-> Forall2 (fun v L => In v L) vs Ls.
Proof.
  revert vs. induction Ls as [|L Ls IH]; intros vs; cbn [all_seqs].
  - split; [intros [<-|[]]; constructor|intros H; inversion H; left; reflexivity].
  - rewrite in_flat_map. split.
    + intros [r [Hr Hv]]. apply in_map_iff in Hv. destruct Hv as [x [<- Hx]]. constructor; [exact Hx|]. apply IH. exact Hr.
    + intros H. inversion H as [|x ? vs' ? Hx Hvs]; subst. exists vs'. split; [apply IH; exact Hvs|]. apply in_map_iff. eauto.
Qed.
Lemma typed2_iff ts : Forall (fun t => no_holes t = true -> forall v, In v (enumerate t) <-> has_ty t v = true) ts -> forallb no_holes ts = true -> forall vs,
  Forall2 (fun v L => In v L) vs (map enumerate ts) <-> typed2 (map has_ty ts) vs = true.
Proof.
  intros H. induction H as [|t ts Ht H IH]; intros Hh vs; cbn; [|cbn in Hh; apply andb_true_iff in Hh; destruct Hh as [Hh1 Hh2]; specialize (Ht Hh1); specialize (IH Hh2)].
  - split; [intros G; inversion G; reflexivity|]. destruct vs; [constructor|discriminate].
  - split.
    + intros G. inversion G as [|v ? vs' ? G1 G2]; subst. rewrite (proj1 (Ht v) G1). cbn. apply IH. exact G2.
    + destruct vs as [|v vs]; [discriminate|]. intros G. apply andb_true_iff in G. destruct G as [G1 G2].
      constructor; [apply Ht; exact G1|apply IH; exact G2].
Qed.
Lemma in_map_VSeq Ls v : In v (map VSeq (all_seqs Ls)) <-> exists vs, v = VSeq vs /\ Forall2 (fun v L => In v L) vs Ls.
Proof.
  rewrite in_map_iff. split; intros [vs [H1 H2]]; exists vs; (split; [congruence|apply in_seqs; assumption]).
Qed.
Lemma in_unit_values vs : forall k v, In v (unit_values k vs) <-> exists i, v = VVariant (k + i) [] /\ nth_error vs i = Some None.
Proof.
  induction vs as [|w vs IH]; intros k v.
  - cbn. split; [intros []|intros [i [_ H]]; destruct i; discriminate].
  - assert (Htail : In v (unit_values (S k) vs) <-> exists i, v = VVariant (k + S i) [] /\ nth_error vs i = Some None).
    { rewrite IH. split; intros [i [H1 H2]]; exists i; (split; [rewrite H1; f_equal; lia|exact H2]). }
    destruct w as [Ls|]; cbn.
    + rewrite Htail. split; [intros [i H]; exists (S i); exact H|]. intros [[|i] [H1 H2]]; [discriminate|]. exists i. auto.
    + rewrite Htail. split.
      * intros [<-|[i H]]; [exists O; rewrite Nat.add_0_r; auto|exists (S i); exact H].
      * intros [[|i] [H1 H2]]; [left; rewrite H1, Nat.add_0_r; reflexivity|right; exists i; auto].
Qed.
Lemma in_data_values vs : forall k v, In v (data_values k vs) <->
  exists i Ls xs, v = VVariant (k + i) xs /\ nth_error vs i = Some (Some Ls) /\ Forall2 (fun v L => In v L) xs Ls.
Proof.
  induction vs as [|w vs IH]; intros k v.
  - cbn. split; [intros []|intros [i [Ls [xs [_ [H _]]]]]; destruct i; discriminate].
  - assert (Htail : In v (data_values (S k) vs) <-> exists i Ls xs, v = VVariant (k + S i) xs /\ nth_error vs i = Some (Some Ls) /\ Forall2 (fun v L => In v L) xs Ls).
    { rewrite IH. split; intros [i [Ls [xs [H1 H2]]]]; exists i, Ls, xs; (split; [rewrite H1; f_equal; lia|exact H2]). }
    destruct w as [Ls|]; cbn.
    + rewrite in_app_iff, Htail, in_map_iff. split.
      * intros [[xs [<- H]]|[i H]]; [exists O, Ls, xs; rewrite Nat.add_0_r; apply in_seqs in H; auto|exists (S i); exact H].
      * intros [[|i] [Ls' [xs [H1 [H2 H3]]]]]; [left|right; exists i, Ls', xs; auto].
        cbn in H2. injection H2 as ->. exists xs. rewrite H1, Nat.add_0_r. split; [reflexivity|]. apply in_seqs. exact H3.
    + rewrite Htail. split; [intros [i H]; exists (S i); exact H|]. intros [[|i] [Ls' [xs [H1 [H2 H3]]]]]; [discriminate|]. exists i, Ls', xs. auto.
Qed.
Theorem enumerate_typed t : no_holes t = true -> forall v, In v (enumerate t) <-> has_ty t v = true.
Proof.
  induction t using ty_induction; cbn [no_holes]; intros Hh v; cbn [enumerate has_ty]; try specialize (IHt Hh).
  - split; [intros [<-|[]]; reflexivity|]. destruct v; try discriminate. left; reflexivity.
  - split; [intros [<-|[<-|[]]]; reflexivity|]. destruct v as [|b| | | | | | |]; try discriminate. destruct b; [right; left|left]; reflexivity.
  - rewrite in_app_iff, in_map_iff. split.
    + intros [[w [<- Hw]]|[<-|[]]]; [apply IHt; exact Hw|reflexivity].
    + destruct v; try discriminate; intros H; [right; left; reflexivity|left]. eexists; split; [reflexivity|]. apply IHt. exact H.
  - apply andb_true_iff in Hh. destruct Hh as [Hh1 Hh2]. specialize (IHt1 Hh1). specialize (IHt2 Hh2). rewrite in_app_iff, !in_map_iff. split.
    + intros [[w [<- Hw]]|[w [<- Hw]]]; [apply IHt1|apply IHt2]; exact Hw.
    + destruct v; try discriminate; intros H; [left|right]; (eexists; split; [reflexivity|]); [apply IHt1|apply IHt2]; exact H.
  - rewrite in_map_VSeq. split.
    + intros [vs [-> G]]. apply (typed2_iff H Hh). exact G.
    + destruct v; try discriminate. intros G. eexists; split; [reflexivity|]. apply (typed2_iff H Hh). exact G.
  - rewrite in_map_VSeq. split.
    + intros [vs [-> G]]. apply andb_true_iff. rewrite Nat.eqb_eq, forallb_forall.
      split; [apply Forall2_length in G; rewrite repeat_length in G; exact G|].
      intros x Hx. clear - G Hx IHt. revert vs G Hx. induction n as [|n IHn]; intros vs G Hx; cbn in G; inversion G as [|y ? vs' ? G1 G2]; subst; [contradiction|].
      destruct Hx as [<-|Hx]; [apply IHt; exact G1|exact (IHn _ G2 Hx)].
    + destruct v; try discriminate. intros G. eexists; split; [reflexivity|]. apply andb_true_iff in G. destruct G as [G1 G2].
      apply Nat.eqb_eq in G1. subst n. rewrite forallb_forall in G2. clear - G2 IHt. induction vs as [|x vs IH]; cbn; [constructor|].
      constructor; [apply IHt; apply G2; left; reflexivity|]. apply IH. intros y Hy. apply G2. right. exact Hy.
  - rewrite in_map_VSeq. split.
    + intros [vs [-> G]]. apply (typed2_iff H Hh). exact G.
    + destruct v; try discriminate. intros G. eexists; split; [reflexivity|]. apply (typed2_iff H Hh). exact G.
  - rewrite forallb_forall in Hh. rewrite in_app_iff, in_unit_values, in_data_values. split.
    + intros [[i [-> G]]|[i [Ls [xs [-> [G1 G2]]]]]]; cbn [Nat.add].
      * rewrite nth_error_map in *. destruct (nth_error vs i) as [[ts|]|]; cbn in *; try discriminate. reflexivity.
      * rewrite nth_error_map in *. destruct (nth_error vs i) as [[ts|]|] eqn:Hi; cbn in *; try discriminate. injection G1 as <-.
        rewrite Forall_forall in H. specialize (H _ (nth_error_In _ _ Hi)). specialize (Hh _ (nth_error_In _ _ Hi)). apply (typed2_iff H Hh). exact G2.
    + destruct v as [| | | | | | |k xs|]; try discriminate. rewrite nth_error_map. intros G.
      destruct (nth_error vs k) as [[ts|]|] eqn:Hk; cbn in G; try discriminate.
      * right. exists k, (map enumerate ts), xs. cbn. split; [reflexivity|]. rewrite nth_error_map, Hk. split; [reflexivity|].
        rewrite Forall_forall in H. specialize (H _ (nth_error_In _ _ Hk)). specialize (Hh _ (nth_error_In _ _ Hk)). apply (typed2_iff H Hh). exact G.
      * left. exists k. cbn. rewrite nth_error_map, Hk. destruct xs; [auto|discriminate].
  - destruct unused; [|discriminate]. rewrite in_map_iff. split.
    + intros [i [<- Hi]]. apply in_seq in Hi. rewrite user_value_nil. apply N.ltb_lt. lia.
    + destruct v; try discriminate. intros G. rewrite user_value_nil in G. apply N.ltb_lt in G. exists (N.to_nat n0). rewrite N2Nat.id. split; [reflexivity|]. apply in_seq. lia.
Qed.
