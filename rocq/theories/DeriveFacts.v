(** DeriveFacts.v -- formulas for the numbers of derived types, [EnumLike] as an
    element type of the collections, values(), PackedU8/PackedU16. *)
From Verif Require Export SparseFacts Config.
From Verif Require Import OpFacts ShiftFacts.
From Coq Require Import ZifyBool ZifyNat ZifyN Eqdep_dec.
Open Scope N_scope.
Set Implicit Arguments.
Unset Strict Implicit.
Set Default Proof Using "Type*".

  Lemma counts ts : map (@lenN val) (map enumerate ts) = map count ts.
  Proof. rewrite map_map. apply map_ext. apply enumerate_count. Qed.
Notation ws vs := (map (option_map (map enumerate)) vs).
  Lemma units_len vs : forall k0, lenN (unit_values k0 (ws vs)) = lenN (filter is_unit vs).
  Proof. induction vs as [|[ts|] vs IH]; intros k0; cbn; [reflexivity|apply IH|]. specialize (IH (S k0)). unfold lenN in *. cbn [length]. lia. Qed.
  Lemma unit_at vs : forall k0 k, nth_error vs k = Some None ->
    nthN (unit_values k0 (ws vs)) (lenN (filter is_unit (firstn k vs))) = Some (VVariant (k0 + k) []).
  Proof.
    induction vs as [|v vs IH]; intros k0 k H; [destruct k; discriminate|]. destruct k as [|k].
    - cbn in H. injection H as ->. cbn. rewrite Nat.add_0_r. reflexivity.
    - cbn in H. specialize (IH (S k0) k H). destruct v as [ts|]; cbn [firstn filter is_unit map option_map unit_values].
      + rewrite IH. do 2 f_equal. lia.
      + change (lenN (None :: filter is_unit (firstn k vs))) with (N.of_nat (S (length (filter is_unit (firstn k vs))))). unfold lenN, nthN in *. rewrite Nat2N.id in *. cbn [nth_error]. rewrite IH. do 2 f_equal. lia.
  Qed.
  Lemma data_at vs : forall k0 k ts xs ds, nth_error vs k = Some (Some ts) -> pick (map enumerate ts) ds xs ->
    nthN (data_values k0 (ws vs)) (sum (map variant_count (filter (fun v => negb (is_unit v)) (firstn k vs))) + radix (map count ts) ds) = Some (VVariant (k0 + k) xs).
  Proof.
    induction vs as [|v vs IH]; intros k0 k ts xs ds H Hp; [destruct k; discriminate|]. destruct k as [|k].
    - cbn in H. injection H as ->. cbn [firstn filter map option_map data_values]. unfold sum. cbn [fold_right]. rewrite N.add_0_l.
      assert (Hd : nthN (all_seqs (map enumerate ts)) (radix (map count ts) ds) = Some xs).
      { apply seqs_pick. exists ds. split; [exact Hp|]. rewrite counts. reflexivity. }
      rewrite nthN_app, lenN_map, (proj2 (N.ltb_lt _ _) (nthN_Some_lt Hd)), nthN_map, Hd. cbn. rewrite Nat.add_0_r. reflexivity.
    - cbn in H. specialize (IH (S k0) k ts xs ds H Hp). destruct v as [ts0|]; cbn [firstn filter is_unit negb map option_map data_values].
      + unfold sum in *. cbn [fold_right variant_count]. rewrite nthN_app, lenN_map, len_seqs, counts. change (prod (map count ts0)) with (product_of (map count ts0)).
        set (S1 := fold_right N.add 0 (map variant_count (filter (fun v : option (list ty) => negb (is_unit v)) (firstn k vs)))) in *.
        destruct (N.ltb_spec (product_of (map count ts0) + S1 + radix (map count ts) ds) (product_of (map count ts0))) as [Hl|Hl]; [lia|].
        replace (product_of (map count ts0) + S1 + radix (map count ts) ds - product_of (map count ts0)) with (S1 + radix (map count ts) ds) by lia.
        rewrite IH. do 2 f_equal. lia.
      + rewrite IH. do 2 f_equal. lia.
  Qed.

Lemma skipn_skipn A (i j : nat) (l : list A) : skipn i (skipn j l) = skipn (j + i) l.
Proof. revert l. induction j as [|j IH]; intros [|x l]; cbn; rewrite ?skipn_nil; auto. Qed.

Section Numbers.
  Variable c : cfg.
  Hypothesis Hbits : 2 <= usize_bits c.

  Lemma number_at t n v d : num_variants_of c t = Some n -> has_ty t v = true -> nthN (enumerate t) d = Some v -> to_discr_of c t v = Ret d.
  Proof.
    intros Hn Hv Hd. rewrite <- (nv_fill Hbits) in Hn. pose proof (code_good Hbits (fill_no_holes t) Hn) as G.
    rewrite <- fill_enumerate in Hd. destruct (fill_like c t) as [_ [L _]]. unfold to_discr_of. rewrite (L _ Hv). exact (g_to G Hd).
  Qed.
  Definition compiled (t : ty) : Prop := exists m, num_variants_of c t = Some m.
  Lemma parts_map ts : Forall (fun k => exists m, k_nv k = Some m) (map (code_of c) ts) -> Forall compiled ts.
  Proof. rewrite !Forall_forall. intros H t Ht. apply (H _ (in_map (code_of c) _ _ Ht)). Qed.
  Lemma struct_parts ts n : num_variants_of c (TStruct ts) = Some n -> Forall compiled ts.
  Proof.
    destruct ts as [|t ts]; [constructor|]. intros H. apply parts_map. exact (total_nv_parts Hbits H).
  Qed.
  Lemma tuple_parts ts n : num_variants_of c (TTuple ts) = Some n -> Forall compiled ts.
  Proof.
    intros H. unfold num_variants_of in H. cbn in H. destruct (Nat.leb _ 32); [|discriminate]. apply tuple_nv_parts in H.
    apply Forall_rev in H. rewrite rev_involutive in H. apply parts_map. exact H. exact Hbits.
  Qed.
  Lemma array_parts k t n : num_variants_of c (TArray k t) = Some n -> k = O \/ compiled t.
  Proof.
    intros H. unfold num_variants_of in H. cbn in H. destruct (Nat.leb _ 32); [|discriminate]. apply tuple_nv_parts in H; [|exact Hbits].
    apply Forall_rev in H. rewrite rev_involutive in H. destruct k; [auto|]. right. inversion H. assumption.
  Qed.
  Lemma enum_parts vs n : num_variants_of c (TEnum vs) = Some n -> Forall (fun v => match v with None => True | Some ts => ts <> [] /\ Forall compiled ts end) vs.
  Proof.
    unfold num_variants_of. cbn [code_of]. unfold enum_code. intros Hm. destruct (forallb _ _) eqn:Hall.
    - rewrite forallb_map, forallb_forall in Hall. rewrite Forall_forall. intros v Hv. specialize (Hall v Hv). destruct v; [discriminate|exact I].
    - cbn in Hm. apply cadd_Some in Hm. destruct Hm as [x [y [Hx _]]]. apply (cadd_fold_Some Hbits) in Hx. destruct Hx as [u [ns [_ [Hns _]]]].
      revert ns Hns. generalize 0%nat as k0. clear -Hbits.
      induction vs as [|[ts|] vs IH]; intros k0 ns Hns; [constructor| |].
      + cbn in Hns. destruct ns as [|n ns]; [discriminate|]. injection Hns as Hn Hns. constructor; [|exact (IH _ _ Hns)].
        destruct ts as [|t ts]; [discriminate|]. split; [discriminate|]. apply parts_map. exact (total_nv_parts Hbits Hn).
      + constructor; [exact I|]. exact (IH _ _ Hns).
  Qed.
  Lemma numbered_pick ts : Forall compiled ts -> forall xs ds, numbered c ts xs ds ->
    pick (map enumerate ts) ds xs /\ typed2 (map has_ty ts) xs = true.
  Proof.
    intros H. induction H as [|t ts [m Hm] H IH]; intros [|x xs] [|d ds] Hn; cbn in Hn; try contradiction; [split; [constructor|reflexivity]|].
    destruct Hn as [Hx [Hd Hn]]. destruct (IH _ _ Hn) as [I1 I2]. destruct (number_of Hbits Hm Hx) as [d' [E1 [E2 _]]].
    rewrite Hd in E2. injection E2 as <-. split; [constructor; assumption|]. cbn. rewrite Hx, I2. reflexivity.
  Qed.
  Theorem seq_number ts xs ds : Forall compiled ts -> numbered c ts xs ds ->
    nthN (map VSeq (all_seqs (map enumerate ts))) (radix (map count ts) ds) = Some (VSeq xs).
  Proof.
    intros H Hn. destruct (numbered_pick H Hn) as [Hp _]. rewrite nthN_map.
    rewrite (proj2 (seqs_pick (map enumerate ts) (radix (map count ts) ds) xs)); [reflexivity|]. exists ds. split; [exact Hp|]. rewrite counts. reflexivity.
  Qed.
  Theorem struct_number ts n xs ds : num_variants_of c (TStruct ts) = Some n -> numbered c ts xs ds ->
    to_discr_of c (TStruct ts) (VSeq xs) = Ret (radix (map count ts) ds).
  Proof.
    intros H Hn. pose proof (struct_parts H) as Hp. apply (number_at H); [apply (numbered_pick Hp Hn)|]. exact (seq_number Hp Hn).
  Qed.
  Theorem tuple_number ts n xs ds : num_variants_of c (TTuple ts) = Some n -> numbered c ts xs ds ->
    to_discr_of c (TTuple ts) (VSeq xs) = Ret (radix (map count ts) ds).
  Proof.
    intros H Hn. pose proof (tuple_parts H) as Hp. apply (number_at H); [apply (numbered_pick Hp Hn)|]. exact (seq_number Hp Hn).
  Qed.
  Theorem array_number k t n xs ds : num_variants_of c (TArray k t) = Some n -> numbered c (repeat t k) xs ds ->
    to_discr_of c (TArray k t) (VSeq xs) = Ret (radix (map count (repeat t k)) ds).
  Proof.
    intros H Hn. assert (Hp : Forall compiled (repeat t k)).
    { apply Forall_forall. intros x Hx. pose proof (repeat_spec _ _ _ Hx) as ->. destruct (array_parts H) as [->|Hc]; [contradiction|exact Hc]. }
    apply (number_at H).
    - cbn [has_ty]. rewrite array_types. rewrite <- map_repeat. apply (numbered_pick Hp Hn).
    - cbn [enumerate]. rewrite <- map_repeat. exact (seq_number Hp Hn).
  Qed.

  (** enums *)
  Theorem enum_unit_number vs n k : num_variants_of c (TEnum vs) = Some n -> nth_error vs k = Some None ->
    to_discr_of c (TEnum vs) (VVariant k []) = Ret (lenN (filter is_unit (firstn k vs))).
  Proof.
    intros H Hk. apply (number_at H).
    - cbn [has_ty]. rewrite nth_error_map, Hk. reflexivity.
    - cbn [enumerate]. cbv zeta. pose proof (unit_at 0 Hk) as Hu. rewrite nthN_app, (proj2 (N.ltb_lt _ _) (nthN_Some_lt Hu)). exact Hu.
  Qed.
  Theorem enum_data_number vs n k ts xs ds : num_variants_of c (TEnum vs) = Some n -> nth_error vs k = Some (Some ts) -> numbered c ts xs ds ->
    to_discr_of c (TEnum vs) (VVariant k xs) =
    Ret (lenN (filter is_unit vs) + sum (map variant_count (filter (fun v => negb (is_unit v)) (firstn k vs))) + radix (map count ts) ds).
  Proof.
    intros H Hk Hn. pose proof (enum_parts H) as Hp. rewrite Forall_forall in Hp. specialize (Hp _ (nth_error_In _ _ Hk)). destruct Hp as [_ Hp].
    destruct (numbered_pick Hp Hn) as [Hpk Hty]. apply (number_at H).
    - cbn [has_ty]. rewrite nth_error_map, Hk. exact Hty.
    - cbn [enumerate]. cbv zeta. rewrite nthN_app, units_len.
      set (S1 := sum (map variant_count (filter (fun v : option (list ty) => negb (is_unit v)) (firstn k vs)))) in *.
      destruct (N.ltb_spec (lenN (filter is_unit vs) + S1 + radix (map count ts) ds) (lenN (filter is_unit vs))) as [Hl|Hl]; [lia|].
      replace (lenN (filter is_unit vs) + S1 + radix (map count ts) ds - lenN (filter is_unit vs)) with (S1 + radix (map count ts) ds) by lia.
      exact (data_at 0 Hk Hpk).
  Qed.
  Theorem c_like_number vs n k : num_variants_of c (TEnum vs) = Some n -> forallb is_unit vs = true -> (k < length vs)%nat ->
    to_discr_of c (TEnum vs) (VVariant k []) = Ret (N.of_nat k).
  Proof.
    intros H Hall Hk. rewrite forallb_forall in Hall.
    assert (Hf : forall l, (forall x, In x l -> In x vs) -> filter is_unit l = l).
    { intros l. induction l as [|x l IH]; intros Hl; [reflexivity|]. cbn. rewrite (Hall x) by (apply Hl; left; reflexivity). f_equal. apply IH. intros y Hy. apply Hl. right. exact Hy. }
    destruct (nth_error vs k) as [v|] eqn:E; [|apply nth_error_None in E; lia].
    assert (v = None) as -> by (specialize (Hall v (nth_error_In _ _ E)); destruct v; [discriminate|reflexivity]).
    rewrite (enum_unit_number H E). rewrite Hf.
    - unfold lenN. rewrite firstn_length. f_equal. lia.
    - intros x Hx. rewrite <- (firstn_skipn k vs). apply in_or_app. left. exact Hx.
  Qed.
End Numbers.

(** ** An EnumLike type as an element type *)
Definition typed (t : ty) : Type := {v : val | has_ty t v = true}.
Definition el (c : cfg) (t : ty) : enumlike (typed t) := {|
  nv := num_variants (code_of c t);
  to_d := fun x => match to_discr_of c t (proj1_sig x) with Ret d => d | _ => 0 end;
  from_d := fun d => match from_discr_of c t d with
                     | Ret v => match bool_dec (has_ty t v) true with left p => Some (exist _ v p) | right _ => None end
                     | _ => None
                     end |}.
Lemma typed_eq t (x y : typed t) : proj1_sig x = proj1_sig y -> x = y.
Proof.
  destruct x as [v p], y as [w q]. cbn. intros ->. f_equal. apply UIP_dec. apply bool_dec.
Qed.
Section El.
  Variable c : cfg.
  Hypothesis Hbits : 2 <= usize_bits c.
  Lemma el_nv t n : num_variants_of c t = Some n -> nv (el c t) = n.
  Proof. intros H. cbn. unfold num_variants. unfold num_variants_of in H. rewrite H. reflexivity. Qed.
  Lemma el_to t n (x : typed t) : num_variants_of c t = Some n -> to_discr_of c t (proj1_sig x) = Ret (to_d (el c t) x).
  Proof. intros H. destruct x as [v p]. cbn. destruct (number_of Hbits H p) as [d [_ [E _]]]. rewrite E. reflexivity. Qed.
  Lemma el_from t n (x : typed t) : num_variants_of c t = Some n -> from_discr_of c t (to_d (el c t) x) = Ret (proj1_sig x).
  Proof. intros H. destruct x as [v p]. cbn. destruct (number_of Hbits H p) as [d [_ [E [_ F]]]]. rewrite E. exact F. Qed.
  Theorem el_lawful t n : num_variants_of c t = Some n -> lawful (el c t).
  Proof.
    intros H. split.
    - intros [v p]. rewrite (el_nv H). destruct (number_of Hbits H p) as [d [_ [E [Hd _]]]]. cbn. rewrite E. exact Hd.
    - intros x. pose proof (el_from x H) as E. cbn in E |- *. rewrite E. destruct (bool_dec (has_ty t (proj1_sig x)) true) as [p|p].
      + change (Some (exist _ (proj1_sig x) p : typed t) = Some x). apply f_equal. apply typed_eq. reflexivity.
      + exfalso. apply p. apply (proj2_sig x).
  Qed.
  Theorem el_complete t n : num_variants_of c t = Some n -> no_holes t = true -> complete (el c t).
  Proof.
    intros H Hh d Hd. rewrite (el_nv H) in Hd. destruct (value_of Hbits H Hh Hd) as [v [Hv E]].
    exists (exist _ v Hv). cbn. rewrite E. reflexivity.
  Qed.
End El.

(** ** values() *)
Section ValuesFacts.
  Context {T : Type} (c : cfg) (E : enumlike T).
  Hypothesis Hlaw : lawful E.
  Hypothesis Hfit : nv E <= usize_max c.

  Lemma complete_lists : complete E -> exists l, lists_all E l /\ lenN l = nv E.
  Proof.
    intros Hc.
    assert (H : forall n, (N.of_nat n <= nv E) -> exists l, length l = n /\ forall i x, (i < n)%nat -> (nth_error l i = Some x <-> to_d E x = N.of_nat i)).
    { induction n as [|n IH]; intros Hn.
      - exists []. split; [reflexivity|]. intros i x Hi. lia.
      - destruct IH as [l [Hl Hx]]; [lia|]. destruct (Hc (N.of_nat n)) as [y Hy]; [lia|].
        exists (l ++ [y]). split; [rewrite app_length; cbn; lia|]. intros i x Hi. destruct (Nat.eq_dec i n) as [->|Hne].
        + rewrite nth_error_app2 by lia. rewrite Hl, Nat.sub_diag. cbn. split.
          * intros G. injection G as <-. exact Hy.
          * intros G. f_equal. pose proof (proj2 Hlaw x) as L1. pose proof (proj2 Hlaw y) as L2. rewrite G in L1. rewrite Hy in L2. congruence.
        + rewrite nth_error_app1 by lia. apply Hx. lia. }
    destruct (H (N.to_nat (nv E))) as [l [Hl Hx]]; [lia|]. exists l. split; [|unfold lenN; lia].
    intros d x. destruct (N.lt_ge_cases d (nv E)) as [Hd|Hd].
    - rewrite Hx by lia. rewrite N2Nat.id. reflexivity.
    - split.
      + intros G. assert (nth_error l (N.to_nat d) = None) by (apply nth_error_None; lia). congruence.
      + intros <-. pose proof (proj1 Hlaw x). lia.
  Qed.
  Lemma lists_from l d x : lists_all E l -> nth_error l (N.to_nat d) = Some x -> from_discr E d = Ret x.
  Proof. intros H G. apply H in G. unfold from_discr. rewrite <- G, (proj2 Hlaw x). reflexivity. Qed.

  Section Calls.
  Variable l : list T.
  Hypothesis Hl : lists_all E l.
  Hypothesis Hlen : lenN l = nv E.
  Lemma next_ok i : i <= nv E -> exists i', i <= i' <= nv E /\
    values_next c E (mkValues i (nv E)) = (Ret (nth_error (skipn (N.to_nat i) l) 0), mkValues i' (nv E)) /\
    skipn (N.to_nat i') l = skipn 1 (skipn (N.to_nat i) l).
  Proof.
    intros Hi. unfold values_next. cbn [v_current v_max]. unfold lenN in Hlen. destruct (N.ltb_spec i (nv E)) as [Hlt|Hge].
    - exists (i + 1). split; [lia|]. destruct (nth_error l (N.to_nat i)) as [x|] eqn:Ex; [|apply nth_error_None in Ex; lia].
      rewrite (lists_from Hl Ex). rewrite uadd_fit by lia. rewrite nth_error_skipn, Nat.add_0_r, Ex. split; [reflexivity|].
      rewrite skipn_skipn. f_equal. lia.
    - assert (i = nv E) by lia. subst i. exists (nv E). split; [lia|]. rewrite skipn_all2 by lia. auto.
  Qed.
  Definition nth_fits (i : N) (k : vcall) : Prop := match k with VNth n => i + n <= usize_max c | _ => True end.
  Lemma call_ok k i : i <= nv E -> nth_fits i k -> exists i', i <= i' <= nv E /\
    v_call c E k (mkValues i (nv E)) = (Ret (fst (l_call k (skipn (N.to_nat i) l))), mkValues i' (nv E)) /\
    skipn (N.to_nat i') l = snd (l_call k (skipn (N.to_nat i) l)).
  Proof.
    intros Hi Hk. unfold lenN in Hlen. destruct k as [|n| | |]; cbn [v_call l_call fst snd nth_fits] in *; unfold bind, ret.
    - destruct (next_ok Hi) as [i' [H1 [H2 H3]]]. exists i'. rewrite H2. auto.
    - unfold values_nth. cbn [v_current v_max]. rewrite uadd_fit by lia. destruct (N.ltb_spec (i + n) (nv E)) as [Hlt|Hge].
      + destruct (next_ok (i := i + n)) as [i' [H1 [H2 H3]]]; [lia|]. exists i'. split; [lia|]. rewrite H2, H3.
        rewrite !nth_error_skipn, !skipn_skipn. split; [do 4 f_equal; lia|f_equal; lia].
      + exists (nv E). split; [lia|]. rewrite nth_error_skipn. rewrite (proj2 (nth_error_None _ _)) by lia. split; [reflexivity|].
        rewrite skipn_skipn, !skipn_all2 by lia. reflexivity.
    - exists i. split; [lia|]. unfold reads, values_size_hint. cbn [v_current v_max]. rewrite usub_fit by lia. split; [|reflexivity].
      unfold lenN. rewrite skipn_length. do 3 f_equal. lia.
    - exists i. split; [lia|]. unfold reads, values_count. cbn [v_current v_max]. rewrite usub_fit by lia. split; [|reflexivity].
      unfold lenN. rewrite skipn_length. do 3 f_equal. lia.
    - exists i. split; [lia|]. unfold reads, values_last. cbn [v_current v_max].
      destruct (N.eqb_spec (nv E) 0) as [H0|H0]; [cbn; rewrite skipn_all2 by lia; auto|]. cbn [orb].
      destruct (N.eqb_spec i (nv E)) as [H1|H1]; [rewrite skipn_all2 by lia; auto|]. rewrite usub_fit by lia. cbn [obind].
      destruct (next_ok (i := nv E - 1)) as [i' [_ [H2 _]]]; [lia|]. rewrite H2. cbn [fst]. split; [|reflexivity]. do 3 f_equal.
      rewrite nth_error_skipn.
      assert (Hsk : skipn (N.to_nat i) l <> []) by (intros G; apply (f_equal (@length T)) in G; rewrite skipn_length in G; cbn in G; lia).
      destruct (exists_last Hsk) as [l0 [x Hx]]. rewrite Hx, rev_app_distr. cbn.
      assert (Hln : length (skipn (N.to_nat i) l) = S (length l0)) by (rewrite Hx, app_length; cbn; lia). rewrite skipn_length in Hln.
      rewrite <- (firstn_skipn (N.to_nat i) l), Hx. rewrite nth_error_app2; rewrite firstn_length; [|lia].
      rewrite nth_error_app2 by lia. replace (_ - _ - _)%nat with 0%nat by lia. reflexivity.
  Qed.
  Theorem run_ok ks : forall i, i <= nv E -> no_wrap (usize_max c) (nv E) ks (skipn (N.to_nat i) l) ->
    exists i', i <= i' <= nv E /\ v_run c E ks (mkValues i (nv E)) = (Ret (l_calls ks (skipn (N.to_nat i) l)), mkValues i' (nv E)).
  Proof.
    induction ks as [|k ks IH]; intros i Hi Hw; [exists i; split; [lia|reflexivity]|]. cbn [v_run l_calls no_wrap] in *. unfold bind at 1.
    destruct Hw as [Hk Hw].
    assert (Hf : nth_fits i k). { destruct k; cbn; auto. unfold lenN in *. rewrite skipn_length in Hk. lia. }
    destruct (call_ok Hi Hf) as [i' [H1 [H2 H3]]]. rewrite H2. rewrite <- H3 in Hw. destruct (IH i' ltac:(lia) Hw) as [i2 [H4 H5]]. rewrite H3 in H5.
    destruct (l_call k (skipn (N.to_nat i) l)) as [r l']. cbn [fst snd] in *. unfold bind. exists i2. split; [lia|]. rewrite H5. reflexivity.
  Qed.
  Lemma nexts_calls n : forall i, N.of_nat n + i <= nv E ->
    v_run c E (repeat VNext n) (mkValues i (nv E)) = (Ret (map (fun x => VItem (Some x)) (firstn n (skipn (N.to_nat i) l))), mkValues (N.of_nat n + i) (nv E)).
  Proof.
    induction n as [|n IH]; intros i Hi; [reflexivity|]. cbn [repeat v_run v_call]. unfold lenN in Hlen.
    destruct (nth_error l (N.to_nat i)) as [x|] eqn:Ex; [|apply nth_error_None in Ex; lia].
    unfold bind at 1. unfold bind at 1. unfold values_next. cbn [v_current v_max]. rewrite (proj2 (N.ltb_lt i (nv E))) by lia.
    rewrite (lists_from Hl Ex), uadd_fit by lia. unfold ret. unfold bind. rewrite IH by lia.
    assert (Hs : skipn (N.to_nat i) l = x :: skipn (N.to_nat (i + 1)) l).
    { clear - Ex. replace (N.to_nat (i + 1)) with (S (N.to_nat i)) by lia. revert Ex. generalize (N.to_nat i) as j. clear i. induction l as [|y m IH]; intros [|j] Ex; cbn in *; try discriminate.
      - injection Ex as ->. reflexivity.
      - rewrite (IH _ Ex). destruct m; reflexivity. }
    rewrite Hs. cbn [firstn map]. do 2 f_equal. lia.
  Qed.
  Lemma v_run_app ks1 : forall ks2 s rs1 s1, v_run c E ks1 s = (Ret rs1, s1) ->
    fst (v_run c E (ks1 ++ ks2) s) = obind (fst (v_run c E ks2 s1)) (fun rs2 => Ret (rs1 ++ rs2)).
  Proof.
    induction ks1 as [|k ks1 IH]; intros ks2 s rs1 s1 H.
    - cbn in H. unfold ret in H. injection H as <- <-. cbn. destruct (fst (v_run c E ks2 s)); reflexivity.
    - cbn [v_run app] in *. unfold bind in *. destruct (v_call c E k s) as [[r|p| |] s']; try discriminate.
      destruct (v_run c E ks1 s') as [[rs|p| |] s2] eqn:E2; try discriminate. unfold ret in H. injection H as <- <-.
      specialize (IH ks2 s' rs s2 E2). destruct (v_run c E (ks1 ++ ks2) s') as [o s3]. cbn [fst] in IH. rewrite IH.
      destruct (fst (v_run c E ks2 s2)); reflexivity.
  Qed.
  Theorem nth_wraps i n : i <= nv E -> n <= usize_max c -> usize_max c < i + n ->
    fst (v_run c E (repeat VNext (N.to_nat i) ++ [VNth n]) (values_of E)) =
    if ovf c then Panic POverflow
    else Ret (map (fun x => VItem (Some x)) (firstn (N.to_nat i) l) ++ [VItem (nth_error l (N.to_nat (i + n - 2 ^ usize_bits c)))]).
  Proof.
    intros Hi Hn Hw. pose proof (nexts_calls (n := N.to_nat i) (i := 0) ltac:(lia)) as E1. cbn [skipn N.to_nat] in E1.
    rewrite (v_run_app _ E1). replace (N.of_nat (N.to_nat i) + 0) with i by lia.
    assert (Hp : usize_max c = 2 ^ usize_bits c - 1) by reflexivity. assert (Hpos : 0 < 2 ^ usize_bits c) by (apply N.neq_0_lt_0, N.pow_nonzero; lia).
    cbn [v_run v_call]. unfold bind at 1. unfold bind at 1. unfold values_nth. cbn [v_current v_max].
    assert (Ea : uadd c i n = if ovf c then Panic POverflow else Ret (i + n - 2 ^ usize_bits c)).
    { unfold uadd. destruct (N.leb_spec (i + n) (usize_max c)); [lia|]. destruct (ovf c); [reflexivity|]. f_equal.
      replace (i + n) with (i + n - 2 ^ usize_bits c + 1 * 2 ^ usize_bits c) at 1 by lia. rewrite N.mod_add by lia.
      rewrite N.mod_small by lia. reflexivity. }
    rewrite Ea. destruct (ovf c); [reflexivity|].
    assert (Hlt : i + n - 2 ^ usize_bits c < nv E) by lia. rewrite (proj2 (N.ltb_lt _ _) Hlt).
    destruct (next_ok (i := i + n - 2 ^ usize_bits c) ltac:(lia)) as [i' [_ [E2 _]]]. rewrite E2. unfold bind, ret. cbn [fst obind]. rewrite nth_error_skipn, Nat.add_0_r. reflexivity.
  Qed.
  End Calls.
  Theorem values_ok : complete E -> exists l, lists_all E l /\ lenN l = nv E /\
    (forall ks, no_wrap (usize_max c) (nv E) ks l -> fst (v_run c E ks (values_of E)) = Ret (l_calls ks l)) /\
    (forall i n, i <= nv E -> n <= usize_max c -> usize_max c < i + n ->
      fst (v_run c E (repeat VNext (N.to_nat i) ++ [VNth n]) (values_of E)) =
      if ovf c then Panic POverflow
      else Ret (map (fun x => VItem (Some x)) (firstn (N.to_nat i) l) ++ [VItem (nth_error l (N.to_nat (i + n - 2 ^ usize_bits c)))])).
  Proof.
    intros Hc. destruct (complete_lists Hc) as [l [H1 H2]]. exists l. split; [exact H1|]. split; [exact H2|]. split.
    - intros ks Hk. destruct (run_ok H1 H2 (i := 0) (N.le_0_l _) Hk) as [i' [_ H]]. unfold values_of. rewrite H. reflexivity.
    - intros i n Hi Hn Hw. apply (nth_wraps H1 H2 Hi Hn Hw).
  Qed.
  Theorem values_hole d : d < nv E -> from_d E d = None -> (forall e, e < d -> exists x, to_d E x = e) ->
    fst (v_run c E (repeat VNext (N.to_nat d + 1)) (values_of E)) = Panic PDiscr.
  Proof.
    intros Hd Hf Hbelow. unfold values_of.
    assert (H : forall n i, N.of_nat n + i = d -> fst (v_run c E (repeat VNext (n + 1)) (mkValues i (nv E))) = Panic PDiscr).
    { induction n as [|n IH]; intros i Hi.
      - cbn in Hi. subst i. cbn. unfold bind, values_next. cbn [v_current v_max]. rewrite (proj2 (N.ltb_lt _ _) Hd). unfold from_discr. rewrite Hf. reflexivity.
      - destruct (Hbelow i ltac:(lia)) as [x Hx]. cbn [Nat.add repeat v_run v_call]. unfold bind at 1. unfold bind at 1. unfold values_next. cbn [v_current v_max].
        rewrite (proj2 (N.ltb_lt i (nv E))) by lia. unfold from_discr. rewrite <- Hx at 1. rewrite (proj2 Hlaw x), uadd_fit by lia. unfold ret.
        specialize (IH (i + 1) ltac:(lia)). unfold bind. destruct (v_run c E (repeat VNext (n + 1)) (mkValues (i + 1) (nv E))) as [[rs|p| |] s]; cbn in IH; try discriminate.
        injection IH as ->. reflexivity. }
    apply H. lia.
  Qed.
End ValuesFacts.

(** ** PackedU8, PackedU16 *)
Section PackedFacts.
  Context {T : Type} (E : enumlike T).
  Hypothesis Hlaw : lawful E.
  Theorem packed_rejected w x : packed_new E w x = None <-> 2 ^ w < nv E.
  Proof using Type.
    unfold packed_new, packed_check. destruct (N.leb_spec (nv E) (2 ^ w)); split; intros G; try discriminate; try reflexivity; lia.
  Qed.
  Theorem packed_ok w x : nv E <= 2 ^ w -> exists p, packed_new E w x = Some (Ret p) /\ p < 2 ^ w /\ packed_get E p = Ret x.
  Proof.
    intros H. unfold packed_new, packed_check. rewrite (proj2 (N.leb_le _ _) H). pose proof (proj1 Hlaw x).
    destruct (N.leb_spec (2 ^ w - nv E) (2 ^ w)); [|lia]. eexists. split; [reflexivity|]. rewrite N.mod_small by lia. split; [lia|].
    unfold packed_get, from_discr. rewrite (proj2 Hlaw x). reflexivity.
  Qed.
  Theorem packed_order w x y p q : packed_new E w x = Some (Ret p) -> packed_new E w y = Some (Ret q) ->
    (packed_eq p q = true <-> x = y) /\ packed_cmp p q = (to_d E x ?= to_d E y).
  Proof.
    unfold packed_new, packed_check. destruct (N.leb_spec (nv E) (2 ^ w)) as [H|H]; [|discriminate].
    destruct (N.leb_spec (2 ^ w - nv E) (2 ^ w)); [|lia]. intros Hp Hq. injection Hp as <-. injection Hq as <-.
    pose proof (proj1 Hlaw x). pose proof (proj1 Hlaw y). rewrite !N.mod_small by lia. split; [|reflexivity].
    unfold packed_eq. rewrite N.eqb_eq. split; [|intros ->; reflexivity]. intros G.
    pose proof (proj2 Hlaw x) as L1. pose proof (proj2 Hlaw y) as L2. rewrite G in L1. congruence.
  Qed.
End PackedFacts.
