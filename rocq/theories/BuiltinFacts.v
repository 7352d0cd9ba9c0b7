(** BuiltinFacts.v -- what the tuple and array macros expand to. *)
From Verif Require Export Builtin SparseFacts.
From Coq Require Import ZifyBool ZifyNat ZifyN.
Open Scope N_scope.
Set Implicit Arguments.
Unset Strict Implicit.

Definition eqc (k k' : code) : Prop :=
  k_nv k = k_nv k' /\ (forall v, k_to k v = k_to k' v) /\ (forall x, k_from k x = k_from k' x).

(** the tables *)
Lemma tuple_entry n : (3 <= n <= 32)%nat ->
  find (fun i => Nat.eqb (S (length (to_first i))) n) tuple_table = Some (mkTupleImpl (seq 0 (n - 1)) (n - 1) (seq 0 (n - 1))).
Proof.
  intros H. assert (Hin : In n (seq 3 30)) by (apply in_seq; lia). clear H. revert n Hin. apply Forall_forall.
  repeat (constructor; [vm_compute; reflexivity|]). constructor.
Qed.
Lemma tuple_none n : (32 < n)%nat -> find (fun i => Nat.eqb (S (length (to_first i))) n) tuple_table = None.
Proof.
  intros H. destruct (find _ tuple_table) as [i|] eqn:E; [|reflexivity]. apply find_some in E. destruct E as [Hin E]. apply Nat.eqb_eq in E.
  assert (G : Forall (fun i => (S (length (to_first i)) <= 32)%nat) tuple_table).
  { apply Forall_forall. intros j Hj. apply Nat.leb_le. revert j Hj. apply forallb_forall. vm_compute. reflexivity. }
  rewrite Forall_forall in G. specialize (G _ Hin). lia.
Qed.
Lemma array_entry n : (1 <= n <= 32)%nat ->
  find (fun i => Nat.eqb (arr_len i) n) array_table = Some (mkArrayImpl n (seq 0 n) (seq 0 n)).
Proof.
  intros H. assert (Hin : In n (seq 1 32)) by (apply in_seq; lia). clear H. revert n Hin. apply Forall_forall.
  repeat (constructor; [vm_compute; reflexivity|]). constructor.
Qed.
Lemma array_none n : (32 < n)%nat -> find (fun i => Nat.eqb (arr_len i) n) array_table = None.
Proof.
  intros H. destruct (find _ array_table) as [i|] eqn:E; [|reflexivity]. apply find_some in E. destruct E as [Hin E]. apply Nat.eqb_eq in E.
  assert (G : Forall (fun i => (arr_len i <= 32)%nat) array_table).
  { apply Forall_forall. intros j Hj. apply Nat.leb_le. revert j Hj. apply forallb_forall. vm_compute. reflexivity. }
  rewrite Forall_forall in G. specialize (G _ Hin). lia.
Qed.

(** selecting fields 0, 1, .. in order *)
Lemma select_shift (v : val) vs l : select (v :: vs) (map S l) = select vs l.
Proof. induction l as [|i l IH]; [reflexivity|]. cbn. rewrite IH. reflexivity. Qed.
Lemma select_seq vs : forall n, (n <= length vs)%nat -> select vs (seq 0 n) = Some (firstn n vs).
Proof.
  induction vs as [|v vs IH]; intros [|n] H; cbn in H; try lia; [reflexivity|reflexivity|].
  cbn [seq select nth_error]. rewrite <- seq_shift, select_shift, IH by lia. reflexivity.
Qed.
Lemma firstn_last A (l : list A) n x : nth_error l n = Some x -> length l = S n -> l = firstn n l ++ [x].
Proof.
  revert n. induction l as [|y l IH]; intros [|n] Hx Hl; cbn in *; try discriminate.
  - injection Hx as <-. destruct l; [reflexivity|discriminate].
  - f_equal. apply IH; [exact Hx|lia].
Qed.

Section Tuples.
  Variable c : cfg.

  Lemma tuple_to_length ks : forall vs, length ks <> length vs -> tuple_to c ks vs = ill_typed.
  Proof.
    induction ks as [|k ks IH]; intros [|v vs] H; try (exfalso; apply H; reflexivity); try reflexivity.
    - cbn. destruct ks; reflexivity.
    - cbn [length] in H. assert (H' : length ks <> length vs) by lia. specialize (IH vs H').
      destruct ks as [|k2 ks]; [destruct vs; [exfalso; apply H; reflexivity|reflexivity]|].
      cbn [tuple_to] in IH |- *. rewrite IH. reflexivity.
  Qed.
  Lemma tuple_from_length ks : forall x vs, tuple_from c ks x = Ret vs -> length vs = length ks.
  Proof.
    induction ks as [|k ks IH]; intros x vs H; cbn [tuple_from] in H; [injection H as <-; reflexivity|].
    destruct ks as [|k2 ks].
    - apply obind_Ret in H. destruct H as [v [_ H]]. injection H as <-. reflexivity.
    - apply obind_Ret in H. destruct H as [r [_ H]]. apply obind_Ret in H. destruct H as [ws [Hw H]].
      apply obind_Ret in H. destruct H as [q [_ H]]. apply obind_Ret in H. destruct H as [v [_ H]]. injection H as <-.
      cbn [length]. f_equal. exact (IH _ _ Hw).
  Qed.
  Lemma obind_assoc A B C (m : outcome A) (f : A -> outcome B) (g : B -> outcome C) :
    obind (obind m f) g = obind m (fun a => obind (f a) g).
  Proof. destruct m; reflexivity. Qed.
  Lemma obind_ext A B (m : outcome A) (f g : A -> outcome B) : (forall a, m = Ret a -> f a = g a) -> obind m f = obind m g.
  Proof. intros H. destruct m; cbn; auto. Qed.

  Lemma tuple_of_ok n : forall ks, length ks = n -> (n <= 32)%nat -> eqc (tuple_of c n ks) (tuple_code c ks).
  Proof.
    induction n as [|n IH]; intros ks Hl Hn.
    - destruct ks; [|discriminate]. split; [reflexivity|]. split; [|reflexivity]. intros v. destruct v; try reflexivity.
      cbn. destruct vs as [|w vs]; [reflexivity|]. cbn. destruct (rev vs); reflexivity.
    - destruct ks as [|k1 [|k2 [|k3 ks]]]; [discriminate| | |].
      + injection Hl as <-. split; [reflexivity|]. split.
        * intros v. destruct v; try reflexivity. destruct vs as [|w [|w2 vs]]; try reflexivity.
          cbn [tuple_of one_code k_to tuple_code]. rewrite tuple_to_length by (rewrite !rev_length; cbn; lia). reflexivity.
        * intros x. cbn. destruct (k_from k1 x); reflexivity.
      + injection Hl as <-. split; [cbn; destruct (k_nv k1); reflexivity|]. split.
        * intros v. destruct v; try reflexivity. destruct vs as [|w [|w2 [|w3 vs]]]; try reflexivity.
          cbn [tuple_of pair_code k_to tuple_code]. rewrite tuple_to_length by (rewrite !rev_length; cbn; lia). reflexivity.
        * intros x. cbn. unfold tuple_num, num_variants. cbn. destruct (urem x _); try reflexivity. cbn. destruct (k_from k1 a); try reflexivity. cbn.
          destruct (udiv x _); try reflexivity. cbn. destruct (k_from k2 a1); reflexivity.
      + set (all := k1 :: k2 :: k3 :: ks) in *.
        assert (Hlt : (n < length all)%nat) by lia.
        destruct (nth_error all n) as [k|] eqn:Hk; [|apply nth_error_None in Hk; exfalso; exact (Nat.lt_irrefl _ (Nat.lt_le_trans _ _ _ Hlt Hk))].
        set (pre := firstn n all). pose proof (firstn_last Hk Hl) as Hall. fold pre in Hall.
        assert (Hpre : length pre = n) by (apply firstn_length_le; apply Nat.lt_le_incl; exact Hlt).
        destruct (IH pre Hpre ltac:(lia)) as [J1 [J2 J3]].
        assert (En : find (fun i => Nat.eqb (S (length (to_first i))) (S n)) tuple_table = Some (mkTupleImpl (seq 0 n) n (seq 0 n))).
        { rewrite tuple_entry by (unfold all in Hl; cbn in Hl; lia). replace (S n - 1)%nat with n by lia. reflexivity. }
        assert (Er : rev all = k :: rev pre) by (rewrite Hall, rev_app_distr; reflexivity).
        assert (Hpos : (1 <= n)%nat) by (unfold all in Hl; cbn in Hl; lia).
        assert (Hrp : rev pre <> []) by (intros E0; apply (f_equal (@length _)) in E0; rewrite rev_length in E0; cbn in E0; lia).
        set (inner := pair_code c (tuple_of c n pre) k).
        assert (Hnv : k_nv (tuple_code c pre) = tuple_nv c (rev pre)).
        { cbn [tuple_code k_nv]. rewrite (proj2 (Nat.leb_le _ _)) by lia. reflexivity. }
        assert (Hnum : num_variants (tuple_of c n pre) = tuple_num c (rev pre)).
        { unfold num_variants, tuple_num. rewrite J1, Hnv. reflexivity. }
        assert (Ei : tuple_of c (S n) all = mkCode (k_nv inner)
                  (fun v => match v with
                            | VSeq vs =>
                                if Nat.eqb (length vs) (S n) then
                                  match select vs (seq 0 n), nth_error vs n with
                                  | Some xs, Some y => k_to inner (VSeq [VSeq xs; y])
                                  | _, _ => ill_typed
                                  end
                                else ill_typed
                            | _ => ill_typed
                            end)
                  (fun x =>
                     let! p := k_from inner x in
                     match p with
                     | VSeq [VSeq a; b] =>
                         match select a (seq 0 n) with
                         | Some xs => Ret (VSeq (xs ++ [b]))
                         | None => ill_typed
                         end
                     | _ => ill_typed
                     end)).
        { change (tuple_of c (S n) all) with (
            match find (fun i => Nat.eqb (S (length (to_first i))) (S n)) tuple_table, nth_error all n with
            | Some i, Some k =>
                let inner := pair_code c (tuple_of c n (firstn n all)) k in
                mkCode (k_nv inner)
                  (fun v => match v with
                            | VSeq vs =>
                                if Nat.eqb (length vs) (S n) then
                                  match select vs (to_first i), nth_error vs (to_last i) with
                                  | Some xs, Some y => k_to inner (VSeq [VSeq xs; y])
                                  | _, _ => ill_typed
                                  end
                                else ill_typed
                            | _ => ill_typed
                            end)
                  (fun x =>
                     let! p := k_from inner x in
                     match p with
                     | VSeq [VSeq a; b] =>
                         match select a (from_first i) with
                         | Some xs => Ret (VSeq (xs ++ [b]))
                         | None => ill_typed
                         end
                     | _ => ill_typed
                     end)
            | _, _ => no_impl
            end). rewrite En, Hk. reflexivity. }
        rewrite Ei. clear Ei En. unfold inner. clear inner. clearbody pre. clear IH Hall Hk Hlt. revert Hl Er. generalize all. intros ks0 Hl Er. clear all. set (it := tuple_of c n pre) in *. clearbody it. set (rp := rev pre) in *. assert (Erp : rev pre = rp) by reflexivity. clearbody rp. cbn [pair_code k_nv k_to k_from]. split; [|split].
        * cbn [k_nv tuple_code]. rewrite J1, Hnv, Er, (proj2 (Nat.leb_le _ _)) by lia.
          destruct rp; [contradiction|reflexivity].
        * intros v. destruct v; try reflexivity. cbn [k_to tuple_code].
          destruct (Nat.eqb_spec (length vs) (S n)) as [Hvl|Hvl].
          2:{ rewrite tuple_to_length by (rewrite !rev_length; lia). reflexivity. }
          rewrite select_seq by lia. destruct (nth_error vs n) as [y|] eqn:Hy; [|apply nth_error_None in Hy; lia].
          assert (Ev : rev vs = y :: rev (firstn n vs)) by (rewrite (firstn_last Hy Hvl) at 1; rewrite rev_app_distr; reflexivity).
          rewrite Ev, Er.
          rewrite J2. cbn [tuple_code k_to]. rewrite Hnum, Erp.
          destruct rp as [|p ps]; [contradiction|]. reflexivity.
        * intros x. cbn [k_from tuple_code]. rewrite Er.
          assert (Et : tuple_from c (k :: rp) x =
            let! r := urem x (tuple_num c rp) in let! vs := tuple_from c rp r in
            let! q := udiv x (tuple_num c rp) in let! v := k_from k q in Ret (v :: vs)) by (destruct rp; [contradiction|reflexivity]).
          rewrite Et, Hnum. clear Et. rewrite !obind_assoc. apply obind_ext. intros r _. rewrite !obind_assoc.
          rewrite J3. cbn [tuple_code k_from]. rewrite Erp, !obind_assoc. apply obind_ext. intros ws Hw. cbn [obind]. rewrite !obind_assoc.
          apply obind_ext. intros q _. rewrite !obind_assoc. apply obind_ext. intros b _. cbn [obind].
          pose proof (tuple_from_length Hw) as Hwl. rewrite <- Erp, rev_length in Hwl.
          rewrite select_seq by (rewrite rev_length; lia). cbn [rev]. rewrite firstn_all2 by (rewrite rev_length; lia). reflexivity.
  Qed.
  Lemma tuple_of_none n k1 k2 k3 ks :
    find (fun i => Nat.eqb (S (length (to_first i))) (S n)) tuple_table = None -> tuple_of c (S n) (k1 :: k2 :: k3 :: ks) = no_impl.
  Proof. intros H. cbn [tuple_of]. rewrite H. reflexivity. Qed.
  Lemma tuple_of_long ks : (32 < length ks)%nat -> k_nv (tuple_macro c ks) = None.
  Proof.
    intros H. unfold tuple_macro. destruct ks as [|k1 [|k2 [|k3 ks]]]; cbn [length] in *; try lia.
    rewrite tuple_of_none; [reflexivity|]. apply tuple_none. exact H.
  Qed.
  Lemma tuple_macro_nv ks : k_nv (tuple_macro c ks) = k_nv (tuple_code c ks).
  Proof.
    destruct (Nat.le_gt_cases (length ks) 32) as [H|H]; [apply (tuple_of_ok eq_refl H)|].
    rewrite (tuple_of_long H). cbn. rewrite (proj2 (Nat.leb_gt _ _)) by lia. reflexivity.
  Qed.

  (** arrays *)
  Lemma set_dead_mid k v m : set_dead k (repeat Dead k ++ Live v :: m) = repeat Dead (S k) ++ m.
  Proof. induction k as [|k IH]; [reflexivity|]. cbn [repeat app set_dead]. rewrite IH. reflexivity. Qed.
  Lemma take_seq vs : forall k, take_all (seq k (length vs)) (repeat Dead k ++ map Live vs) = (Ret vs, repeat Dead (k + length vs)).
  Proof.
    induction vs as [|v vs IH]; intros k; cbn [length seq take_all map].
    - rewrite Nat.add_0_r, app_nil_r. reflexivity.
    - unfold take. rewrite nth_error_app2, repeat_length, Nat.sub_diag by (rewrite repeat_length; lia). cbn [nth_error].
      rewrite set_dead_mid, IH. replace (k + S (length vs))%nat with (S k + length vs)%nat by lia. reflexivity.
  Qed.
  Lemma dead_repeat n : (1 <= n)%nat -> existsb is_dead (repeat Dead n) = true.
  Proof. destruct n; [lia|]. reflexivity. Qed.

  Lemma array_macro_shape glue n k : (1 <= n <= 32)%nat ->
    k_nv (array_macro c glue n k) = k_nv (array_code c n k) /\
    (forall v, k_to (array_macro c glue n k) v =
       match v with
       | VSeq vs => if Nat.eqb (length vs) n then (if glue then UB else k_to (array_code c n k) v) else ill_typed
       | _ => ill_typed
       end) /\
    (forall x, k_from (array_macro c glue n k) x = k_from (array_code c n k) x).
  Proof.
    intros Hn. destruct (tuple_of_ok (repeat_length k n) ltac:(lia)) as [J1 [J2 J3]].
    assert (Et : tuple_macro c (repeat k n) = tuple_of c n (repeat k n)) by (unfold tuple_macro; rewrite repeat_length; reflexivity).
    unfold array_macro. destruct n as [|m]; [lia|]. set (n := S m) in *. rewrite (array_entry Hn). cbn [arr_to arr_from]. rewrite Et.
    set (tc := tuple_of c n (repeat k n)) in *. clearbody tc. cbn [k_nv k_to k_from]. split; [exact J1|]. split.
    - intros v. destruct v; try reflexivity. destruct (Nat.eqb_spec (length vs) n) as [Hl|Hl]; [|reflexivity].
      pose proof (take_seq vs 0) as Ht. cbn [repeat app Nat.add] in Ht. rewrite <- Hl, Ht. cbn [obind]. unfold drop_array.
      rewrite dead_repeat by lia. rewrite andb_true_r. destruct glue; [reflexivity|]. rewrite Hl. apply J2.
    - intros x. rewrite J3. cbn [array_code tuple_code k_from]. rewrite obind_assoc. apply obind_ext. intros rvs Hr. cbn [obind].
      apply tuple_from_length in Hr. rewrite rev_length, repeat_length in Hr.
      rewrite select_seq by (rewrite rev_length; lia). rewrite firstn_all2 by (rewrite rev_length; lia). reflexivity.
  Qed.
  Lemma array_macro_zero glue k : eqc (array_macro c glue 0 k) (array_code c 0 k).
  Proof.
    split; [reflexivity|]. split; [|reflexivity]. intros v. destruct v; try reflexivity.
    cbn. destruct vs as [|w vs]; [reflexivity|]. cbn. destruct (rev vs); reflexivity.
  Qed.
  Lemma array_macro_nv glue n k : k_nv (array_macro c glue n k) = k_nv (array_code c n k).
  Proof.
    destruct n as [|n]; [apply array_macro_zero|].
    destruct (Nat.le_gt_cases (S n) 32) as [H|H]; [apply (array_macro_shape glue k); lia|].
    unfold array_macro. rewrite array_none by lia. unfold array_code. cbn [tuple_code k_nv no_impl].
    rewrite repeat_length, (proj2 (Nat.leb_gt _ _)) by lia. reflexivity.
  Qed.
  Lemma array_macro_ok n k : (n <= 32)%nat -> eqc (array_macro c false n k) (array_code c n k).
  Proof.
    intros Hn. destruct n as [|n]; [apply array_macro_zero|].
    destruct (array_macro_shape false (n := S n) k) as [H1 [H2 H3]]; [lia|]. split; [exact H1|]. split; [|exact H3].
    intros v. rewrite H2. destruct v; try reflexivity. destruct (Nat.eqb_spec (length vs) (S n)) as [Hl|Hl]; [reflexivity|].
    unfold array_code. cbn [tuple_code k_to]. rewrite tuple_to_length by (rewrite !rev_length, repeat_length; lia). reflexivity.
  Qed.
End Tuples.

Lemma like_eqc V k k' k'' : eqc k k' -> like V k' k'' -> like V k k''.
Proof.
  intros [H1 [H2 H3]] [G1 [G2 G3]]. split; [congruence|]. split.
  - intros v Hv. rewrite H2. apply G2. exact Hv.
  - intros d v Hv Hf. rewrite H3. apply (G3 _ _ Hv Hf).
Qed.

(** no array of elements that need to be dropped *)
Section Moves.
  Variable impl_drop : ty -> bool.
  Local Notation moves_only := (moves_only impl_drop).
  Lemma moves_list ts : Forall (fun t => needs_drop impl_drop t = false -> moves_only t = true) ts ->
    existsb (needs_drop impl_drop) ts = false -> forallb moves_only ts = true.
  Proof.
    intros H. induction H as [|t ts Ht H IH]; [reflexivity|]. cbn. intros G. apply orb_false_iff in G. destruct G as [G1 G2].
    rewrite (Ht G1), (IH G2). reflexivity.
  Qed.
  Lemma copy_moves t : needs_drop impl_drop t = false -> moves_only t = true.
  Proof.
    induction t using ty_induction; cbn [needs_drop moves_only]; auto.
    - intros H. apply orb_false_iff in H. destruct H as [H1 H2]. rewrite (IHt1 H1), (IHt2 H2). reflexivity.
    - apply moves_list. exact H.
    - destruct n as [|n]; [reflexivity|]. cbn. intros H. rewrite H, (IHt H). reflexivity.
    - intros H1. apply orb_false_iff in H1. apply (moves_list H). apply H1.
    - intros H1. apply orb_false_iff in H1. destruct H1 as [_ H1]. induction H as [|v vs Hv H IH]; [reflexivity|].
      cbn [existsb forallb] in *. apply orb_false_iff in H1. destruct H1 as [H1 H2]. rewrite (IH H2), andb_true_r.
      destruct v as [ts|]; [|reflexivity]. apply (moves_list Hv H1).
  Qed.

  Variable c : cfg.
  Definition nope : val -> bool := fun _ => false.
  Lemma nope_nv k k' : k_nv k = k_nv k' -> like nope k k'.
  Proof. intros H. split; [exact H|]. split; discriminate. Qed.
  Lemma nope_map ts : Forall (fun t => k_nv (macro_code c impl_drop t) = k_nv (code_of c t)) ts ->
    likes (map (fun _ => nope) ts) (map (macro_code c impl_drop) ts) (map (code_of c) ts).
  Proof. intros H. induction H; cbn; constructor; auto. apply nope_nv. assumption. Qed.
  Theorem macro_nv t : k_nv (macro_code c impl_drop t) = k_nv (code_of c t).
  Proof.
    induction t using ty_induction; cbn [macro_code code_of]; try reflexivity.
    - apply (option_like c (nope_nv IHt)).
    - apply (result_like c (nope_nv IHt1) (nope_nv IHt2)).
    - rewrite tuple_macro_nv. apply (tuple_like c (nope_map H)).
    - rewrite array_macro_nv. unfold array_code.
      assert (Hr : likes (repeat nope n) (repeat (macro_code c impl_drop t) n) (repeat (code_of c t) n)).
      { induction n; cbn; constructor; [apply nope_nv; assumption|assumption]. }
      apply (tuple_like c Hr).
    - apply (struct_like c (nope_map H)).
    - assert (Hv : vlikes (map (option_map (map (fun _ : ty => nope))) vs) (map (option_map (map (macro_code c impl_drop))) vs) (map (option_map (map (code_of c))) vs)).
      { induction H as [|[ts|] vs Hv H IH]; cbn; constructor; auto. apply nope_map. exact Hv. }
      apply (enum_like c Hv).
  Qed.

  Hypothesis Hbits : 2 <= usize_bits c.
  Definition compiled (t : ty) : Prop := exists n, k_nv (code_of c t) = Some n.
  Lemma likes_ok ts : Forall (fun t => compiled t -> moves_only t = true -> like (has_ty t) (macro_code c impl_drop t) (code_of c t)) ts ->
    Forall (fun k => exists m, k_nv k = Some m) (map (code_of c) ts) -> forallb moves_only ts = true ->
    likes (map has_ty ts) (map (macro_code c impl_drop) ts) (map (code_of c) ts).
  Proof.
    intros H. induction H as [|t ts Ht H IH]; intros Hp Hm; cbn; constructor.
    - inversion Hp; subst. cbn in Hm. apply andb_true_iff in Hm. apply Ht; [assumption|apply Hm].
    - inversion Hp; subst. cbn in Hm. apply andb_true_iff in Hm. apply IH; [assumption|apply Hm].
  Qed.
  Lemma enum_parts vs m : k_nv (enum_code c vs) = Some m ->
    Forall (fun v => match v with None => True | Some ks => Forall (fun k => exists m, k_nv k = Some m) ks end) vs.
  Proof.
    intros Hm. unfold enum_code in Hm. destruct (forallb _ _) eqn:Hall.
    - rewrite forallb_forall in Hall. rewrite Forall_forall. intros v Hv. specialize (Hall v Hv). destruct v; [discriminate|exact I].
    - cbn in Hm. apply cadd_Some in Hm. destruct Hm as [x [y [Hx _]]]. apply (cadd_fold_Some Hbits) in Hx. destruct Hx as [u [ns [_ [Hns _]]]].
      revert ns Hns. clear Hall. revert vs. generalize 0%nat as k0. intros k0 vs. revert k0.
      induction vs as [|[ks|] ws IH]; intros k0 ns Hns; [constructor| |].
      + cbn in Hns. destruct ns as [|n ns]; [discriminate|]. injection Hns as Hn Hns. constructor; [|exact (IH _ _ Hns)].
        destruct ks as [|k ks]; [discriminate|]. exact (total_nv_parts Hbits Hn).
      + constructor; [exact I|]. exact (IH _ _ Hns).
  Qed.

  Theorem macro_like t : compiled t -> moves_only t = true -> like (has_ty t) (macro_code c impl_drop t) (code_of c t).
  Proof.
    induction t using ty_induction; intros [m Hm] Hd; cbn [macro_code code_of moves_only] in *.
    - apply like_refl.
    - apply like_refl.
    - change (cadd c (Some 1) (k_nv (code_of c t)) = Some m) in Hm. apply cadd_Some in Hm. destruct Hm as [x [y [_ [Hy _]]]].
      apply (like_ext (option_like c (IHt (ex_intro _ _ Hy) Hd))). intros v; destruct v; cbn; auto.
    - change (cadd c (k_nv (code_of c t1)) (k_nv (code_of c t2)) = Some m) in Hm. apply cadd_Some in Hm. destruct Hm as [x [y [Hx [Hy _]]]].
      apply andb_true_iff in Hd. destruct Hd as [Hd1 Hd2].
      apply (like_ext (result_like c (IHt1 (ex_intro _ _ Hx) Hd1) (IHt2 (ex_intro _ _ Hy) Hd2))). intros v; destruct v; cbn; auto.
    - cbn in Hm. destruct (Nat.leb_spec (length (map (code_of c) ts)) 32) as [Hle|]; [|discriminate]. rewrite map_length in Hle.
      apply (tuple_nv_parts Hbits) in Hm. apply Forall_rev in Hm. rewrite rev_involutive in Hm.
      eapply like_eqc. { apply tuple_of_ok; [reflexivity|rewrite map_length; exact Hle]. }
      apply (like_ext (tuple_like c (likes_ok H Hm Hd))). intros v; destruct v; cbn; auto.
    - unfold array_code in Hm. cbn in Hm. destruct (Nat.leb_spec (length (repeat (code_of c t) n)) 32) as [Hle|]; [|discriminate]. rewrite repeat_length in Hle.
      destruct n as [|n].
      + eapply like_eqc; [apply array_macro_zero|]. apply like_refl.
      + cbn [Nat.eqb orb] in Hd. apply andb_true_iff in Hd. destruct Hd as [Hd1 Hd2]. apply negb_true_iff in Hd1. rewrite Hd1.
        apply (tuple_nv_parts Hbits) in Hm. apply Forall_rev in Hm. rewrite rev_involutive in Hm. cbn in Hm. inversion Hm as [|? ? Hk _]; subst.
        specialize (IHt Hk Hd2).
        assert (Hr : likes (repeat (has_ty t) (S n)) (repeat (macro_code c impl_drop t) (S n)) (repeat (code_of c t) (S n))).
        { generalize (S n). intros j. induction j; cbn; constructor; assumption. }
        eapply like_eqc. { apply array_macro_ok. exact Hle. }
        apply (like_ext (tuple_like c Hr)). intros v; destruct v; cbn [has_ty]; auto. rewrite array_types. auto.
    - destruct ts as [|t ts]; [apply like_refl|].
      change (k_nv (struct_code c (map (code_of c) (t :: ts)))) with (total_nv c (map (code_of c) (t :: ts))) in Hm.
      apply (total_nv_parts Hbits) in Hm. apply (like_ext (struct_like c (likes_ok H Hm Hd))). intros v; destruct v; cbn; auto.
    - apply enum_parts in Hm.
      assert (Hv : vlikes (map (option_map (map has_ty)) vs) (map (option_map (map (macro_code c impl_drop))) vs) (map (option_map (map (code_of c))) vs)).
      { induction H as [|v vs Hv H IH]; [constructor|]. cbn in Hm, Hd |- *. inversion Hm as [|? ? Hm1 Hm2]; subst.
        apply andb_true_iff in Hd. destruct Hd as [Hd1 Hd2]. destruct v as [ts|]; cbn in *; constructor; auto.
        apply likes_ok; assumption. }
      apply (like_ext (enum_like c Hv)). intros v; destruct v; cbn; auto.
    - apply like_refl.
  Qed.

  (** arrays of elements that need to be dropped *)
  Theorem array_drop_UB n t v : (n <= 32)%nat -> n <> O -> needs_drop impl_drop t = true -> has_ty (TArray n t) v = true ->
    k_to (macro_code c impl_drop (TArray n t)) v = UB.
  Proof.
    clear Hbits. intros Hn H0 Hd Hv. cbn [macro_code]. rewrite Hd.
    destruct (array_macro_shape c true (n := n) (macro_code c impl_drop t)) as [_ [H _]]; [lia|]. rewrite H.
    destruct v; try discriminate. cbn in Hv. apply andb_true_iff in Hv. rewrite (proj1 Hv). reflexivity.
  Qed.
End Moves.
