(** EnumFacts2.v -- counting, compile-time constants, formulas for the numbers. *)
From Verif Require Export EnumFacts.
From Verif Require Import OpFacts ShiftFacts.
From Coq Require Import ZifyBool ZifyNat ZifyN.
Open Scope N_scope.
Set Implicit Arguments.
Unset Strict Implicit.
Set Default Proof Using "Type*".

Lemma product_of_prod l : product_of l = prod l.
Proof. induction l as [|n l IH]; [reflexivity|]. cbn [prod]. rewrite <- IH. reflexivity. Qed.
Lemma product_of_app l m : product_of (l ++ m) = product_of l * product_of m.
Proof. rewrite !product_of_prod. apply prod_app. Qed.
Lemma radix_mix ns ds : radix ns ds = mix ns ds.
Proof. reflexivity. Qed.
Lemma sum_app l m : sum (l ++ m) = sum l + sum m.
Proof. unfold sum. induction l as [|n l IH]; cbn; [reflexivity|]. rewrite IH. lia. Qed.
Lemma prod_repeat n k : prod (repeat n k) = n ^ N.of_nat k.
Proof.
  induction k as [|k IH]; [reflexivity|]. cbn [repeat prod]. rewrite IH, Nat2N.inj_succ, N.pow_succ_r'. reflexivity.
Qed.
Lemma map_repeat A B (f : A -> B) x n : map f (repeat x n) = repeat (f x) n.
Proof. induction n; cbn; congruence. Qed.

Lemma repeat_snoc A (x : A) n : repeat x n ++ [x] = x :: repeat x n.
Proof. induction n as [|n IH]; [reflexivity|]. cbn. rewrite IH. reflexivity. Qed.
Lemma rev_repeat A (x : A) n : rev (repeat x n) = repeat x n.
Proof. induction n as [|n IH]; [reflexivity|]. cbn. rewrite IH, repeat_snoc. reflexivity. Qed.

Lemma prod_rev l : prod (rev l) = prod l.
Proof. induction l as [|n l IH]; [reflexivity|]. cbn [rev]. rewrite prod_app, IH. cbn [prod]. lia. Qed.

Lemma count_list ts : Forall (fun t => lenN (enumerate t) = count t) ts -> map (@lenN val) (map enumerate ts) = map count ts.
Proof. intros H. induction H as [|t ts Ht H IH]; [reflexivity|]. cbn. rewrite IH, Ht. reflexivity. Qed.
Lemma len_unit_data ws : forall k, lenN (unit_values k ws) + lenN (data_values k ws) =
  sum (map (fun w => match w with None => 1 | Some Ls => prod (map (@lenN val) Ls) end) ws).
Proof.
  induction ws as [|[Ls|] ws IH]; intros k; [reflexivity| |]; cbn [unit_values data_values map].
  - rewrite lenN_app, lenN_map, len_seqs. unfold sum. cbn [fold_right]. fold (sum (map (fun w => match w with None => 1 | Some Ls => prod (map (@lenN val) Ls) end) ws)).
    rewrite <- (IH (S k)). lia.
  - unfold sum. cbn [fold_right]. fold (sum (map (fun w => match w with None => 1 | Some Ls => prod (map (@lenN val) Ls) end) ws)).
    rewrite <- (IH (S k)). unfold lenN. cbn [length]. lia.
Qed.
Theorem enumerate_count t : lenN (enumerate t) = count t.
Proof.
  induction t using ty_induction; cbn [enumerate count].
  - reflexivity.
  - reflexivity.
  - rewrite lenN_app, lenN_map, IHt. change (lenN [VNone]) with 1. lia.
  - rewrite lenN_app, !lenN_map, IHt1, IHt2. reflexivity.
  - rewrite lenN_map, len_seqs, (count_list H). reflexivity.
  - rewrite lenN_map, len_seqs, map_repeat, prod_repeat, IHt. reflexivity.
  - rewrite lenN_map, len_seqs, (count_list H). reflexivity.
  - cbv zeta. rewrite lenN_app, len_unit_data, map_map. f_equal. induction H as [|v vs Hv H IH]; [reflexivity|]. cbn [map].
    rewrite IH. f_equal. destruct v as [ts|]; [|reflexivity]. cbn [option_map]. rewrite (count_list Hv). reflexivity.
  - rewrite lenN_map. unfold lenN. rewrite seq_length. lia.
Qed.

  Lemma factor_le ns n : Forall (fun n => 1 <= n) ns -> In n ns -> n <= prod ns.
  Proof.
    intros H. induction H as [|m ns Hm H IH]; [contradiction|]. intros [<-|Hin]; cbn [prod].
    - pose proof (prod_pos H). nia.
    - specialize (IH Hin). nia.
  Qed.
  Lemma counts_pos ts : forallb (fun t => 1 <=? count t) ts = true -> Forall (fun n => 1 <= n) (map count ts).
  Proof. rewrite forallb_forall, Forall_forall. intros H n Hn. apply in_map_iff in Hn. destruct Hn as [t [<- Ht]]. apply N.leb_le, H, Ht. Qed.

(** ** When NUM_VARIANTS compiles *)
Section Compiles.
  Variable c : cfg.
  Hypothesis Hbits : 2 <= usize_bits c.

  Lemma cadd_fit x y : x + y <= usize_max c -> cadd c (Some x) (Some y) = Some (x + y).
  Proof. intros H. unfold cadd, cfit. rewrite (proj2 (N.leb_le _ _) H). reflexivity. Qed.
  Lemma cmul_fit x y : x * y <= usize_max c -> cmul c (Some x) (Some y) = Some (x * y).
  Proof. intros H. unfold cmul, cfit. rewrite (proj2 (N.leb_le _ _) H). reflexivity. Qed.
  Lemma tuple_nv_fit ks : forall ns, map k_nv ks = map (@Some N) ns -> Forall (fun n => 1 <= n) ns -> prod ns <= usize_max c ->
    tuple_nv c ks = Some (prod ns).
  Proof.
    induction ks as [|k ks IH]; intros [|n ns] Hk Hp Hle; try discriminate; [reflexivity|].
    cbn [map] in Hk. injection Hk as Hk1 Hk2. inversion Hp as [|? ? Hp1 Hp2]; subst. cbn [prod] in *. destruct ks as [|k2 ks].
    - destruct ns; [|discriminate]. cbn in *. rewrite Hk1. f_equal. lia.
    - pose proof (prod_pos Hp2). change (cmul c (tuple_nv c (k2 :: ks)) (k_nv k) = Some (n * prod ns)). rewrite (IH ns Hk2 Hp2) by nia.
      rewrite Hk1, cmul_fit by nia. f_equal. lia.
  Qed.
  Lemma cmul_fold_fit ns : forall x, Forall (fun n => 1 <= n) ns -> x * prod ns <= usize_max c ->
    fold_left (cmul c) (map (@Some N) ns) (Some x) = Some (x * prod ns).
  Proof.
    induction ns as [|n ns IH]; intros x Hp Hle; cbn [map fold_left prod] in *; [f_equal; lia|].
    inversion Hp as [|? ? Hp1 Hp2]; subst. pose proof (prod_pos Hp2). rewrite cmul_fit by nia. rewrite IH by (auto; nia). f_equal. lia.
  Qed.
  Lemma total_nv_fit ks ns : map k_nv ks = map (@Some N) ns -> Forall (fun n => 1 <= n) ns -> prod ns <= usize_max c ->
    total_nv c ks = Some (prod ns).
  Proof.
    destruct ks as [|k ks], ns as [|n ns]; try discriminate; intros Hk Hp Hle; [reflexivity|]. cbn [map] in Hk. injection Hk as Hk1 Hk2.
    inversion Hp; subst. cbn [total_nv prod] in *. rewrite Hk1, Hk2. apply cmul_fold_fit; assumption.
  Qed.
  Lemma cadd_fold_fit ns : forall x, x + sum ns <= usize_max c -> fold_left (cadd c) (map (@Some N) ns) (Some x) = Some (x + sum ns).
  Proof.
    induction ns as [|n ns IH]; intros x Hle; cbn [map fold_left] in *; [f_equal; unfold sum; cbn; lia|].
    unfold sum in *. cbn [fold_right] in *. rewrite cadd_fit by lia. rewrite IH by lia. f_equal. lia.
  Qed.
  Lemma map_Some_all ts : (forall t, In t ts -> num_variants_of c t = Some (count t)) ->
    map k_nv (map (code_of c) ts) = map (@Some N) (map count ts).
  Proof. induction ts as [|t ts IH]; intros H; [reflexivity|]. cbn. rewrite IH by (intros; apply H; right; assumption). f_equal. apply H. left; reflexivity. Qed.
  Lemma parts_fit ts : Forall (fun t => supported t = true -> count t <= usize_max c -> num_variants_of c t = Some (count t)) ts ->
    forallb supported ts = true -> forallb (fun t => 1 <=? count t) ts = true -> prod (map count ts) <= usize_max c ->
    map k_nv (map (code_of c) ts) = map (@Some N) (map count ts).
  Proof.
    intros H Hs Hp Hle. apply map_Some_all. intros t Ht. rewrite Forall_forall in H. rewrite forallb_forall in Hs.
    apply H; [exact Ht|apply Hs, Ht|]. pose proof (factor_le (counts_pos Hp) (in_map count _ _ Ht)). lia.
  Qed.

  Theorem supported_compiles t : supported t = true -> count t <= usize_max c -> num_variants_of c t = Some (count t).
  Proof.
    pose proof (usize_ge1 Hbits) as Hu. unfold num_variants_of.
    induction t using ty_induction; cbn [supported count]; intros Hs Hle.
    - reflexivity.
    - reflexivity.
    - change (cadd c (Some 1) (k_nv (code_of c t)) = Some (1 + count t)). rewrite IHt by (auto; lia). apply cadd_fit. exact Hle.
    - apply andb_true_iff in Hs. destruct Hs as [H1 H2]. change (cadd c (k_nv (code_of c t1)) (k_nv (code_of c t2)) = Some (count t1 + count t2)).
      rewrite IHt1, IHt2 by (auto; lia). apply cadd_fit. exact Hle.
    - rewrite !andb_true_iff in Hs. destruct Hs as [[H1 H2] H3]. rewrite product_of_prod in *.
      cbn [code_of k_nv tuple_code]. rewrite map_length, H1.
      assert (Hk := parts_fit H H2 H3 Hle).
      rewrite (@tuple_nv_fit (rev (map (code_of c) ts)) (rev (map count ts))).
      + rewrite prod_rev. reflexivity.
      + rewrite !map_rev, Hk. reflexivity.
      + apply Forall_rev, counts_pos, H3.
      + rewrite prod_rev. exact Hle.
    - rewrite !andb_true_iff in Hs. destruct Hs as [[H1 H2] H3]. apply N.leb_le in H3.
      cbn [code_of k_nv array_code tuple_code]. rewrite repeat_length, H1.
      destruct n as [|n]; [reflexivity|].
      assert (Hc : count t <= usize_max c).
      { rewrite Nat2N.inj_succ, N.pow_succ_r' in Hle. assert (1 <= count t ^ N.of_nat n) by (rewrite <- (N.pow_1_l (N.of_nat n)); apply N.pow_le_mono_l; lia). nia. }
      rewrite (@tuple_nv_fit _ (repeat (count t) (S n))).
      + rewrite prod_repeat. reflexivity.
      + rewrite map_rev, !map_repeat, (IHt H2 Hc). generalize (S n) as m. clear. intros m.
        apply rev_repeat.
      + apply Forall_forall. intros x Hx. apply repeat_spec in Hx. subst x. exact H3.
      + rewrite prod_repeat. exact Hle.
    - apply andb_true_iff in Hs. destruct Hs as [H2 H3]. rewrite product_of_prod in *. destruct ts as [|t ts]; [reflexivity|].
      change (total_nv c (map (code_of c) (t :: ts)) = Some (prod (map count (t :: ts)))).
      apply total_nv_fit; [exact (parts_fit H H2 H3 Hle)|apply counts_pos, H3|exact Hle].
    - cbn [code_of]. unfold enum_code. destruct (forallb _ (map _ vs)) eqn:Hall.
      + cbn [c_enum_code k_nv]. rewrite map_length.
        assert (Hc : sum (map (fun v => match v with None => 1 | Some ts => product_of (map count ts) end) vs) = N.of_nat (length vs)).
        { clear -Hall. induction vs as [|[ts|] vs IH]; [reflexivity|discriminate|]. cbn [map forallb andb option_map] in Hall. unfold sum in *. cbn [map fold_right length].
          rewrite (IH Hall). lia. }
        rewrite Hc in *. unfold cfit. rewrite (proj2 (N.leb_le _ _) Hle). reflexivity.
      + clear Hall. cbn [rusty_enum_code k_nv].
        set (cs := map (fun v => match v with None => 1 | Some ts => product_of (map count ts) end) vs) in *.
        assert (Hd : exists ns, map (fun a : nat * list code => arm_nv c (snd a)) (data_ids 0 (map (option_map (map (code_of c))) vs)) = map (@Some N) ns /\
                      lenN (unit_ids 0 (map (option_map (map (code_of c))) vs)) + sum ns = sum cs).
        { subst cs. generalize 0%nat as k0. revert Hle Hs. clear -H Hu Hbits. induction H as [|v vs Hv H IH]; intros Hle Hs k0.
          - exists []. split; reflexivity.
          - cbn [forallb] in Hs. apply andb_true_iff in Hs. destruct Hs as [Hs1 Hs2].
            cbn [map] in Hle. unfold sum in Hle. cbn [fold_right] in Hle.
            fold (sum (map (fun v => match v with None => 1 | Some ts => product_of (map count ts) end) vs)) in Hle.
            assert (Hle2 : sum (map (fun v => match v with None => 1 | Some ts => product_of (map count ts) end) vs) <= usize_max c) by lia.
            destruct (IH Hle2 Hs2 (S k0)) as [ns [E1 E2]]. clear IH.
            destruct v as [ts|]; cbn [map option_map unit_ids data_ids].
            + rewrite !andb_true_iff in Hs1. destruct Hs1 as [[Ht0 Ht1] Ht2]. rewrite product_of_prod in Hle.
              assert (Hprod : prod (map count ts) <= usize_max c) by lia.
              exists (prod (map count ts) :: ns). split.
              * cbn [snd]. rewrite E1. change (map (@Some N) (prod (map count ts) :: ns)) with (Some (prod (map count ts)) :: map (@Some N) ns). f_equal. destruct ts as [|t ts]; [discriminate|].
                change (total_nv c (map (code_of c) (t :: ts)) = Some (prod (map count (t :: ts)))).
                apply total_nv_fit; [exact (parts_fit Hv Ht1 Ht2 Hprod)|apply counts_pos, Ht2|exact Hprod].
              * unfold sum in *. cbn [fold_right]. rewrite <- E2. change product_of with prod. lia.
            + exists ns. split; [exact E1|]. unfold sum in *. cbn [fold_right]. rewrite <- E2. unfold lenN. cbn [length]. lia. }
        destruct Hd as [ns [E1 E2]]. rewrite E1. unfold cfit at 1. rewrite (proj2 (N.leb_le _ (usize_max c))) by lia.
        rewrite cadd_fold_fit by lia. rewrite cadd_fit by lia. f_equal. lia.
    - cbn. unfold cfit. rewrite (proj2 (N.leb_le _ _) Hle). reflexivity.
  Qed.
  Theorem compiles_count t n : no_holes t = true -> num_variants_of c t = Some n -> n = count t /\ n <= usize_max c.
  Proof. intros Hh H. pose proof (code_good Hbits Hh H) as G. pose proof (g_nv G) as E. unfold num_variants_of in H. rewrite H in E. injection E as ->.
    split; [apply enumerate_count|exact (g_fit G)]. Qed.
End Compiles.
