(** LocalFacts.v -- proofs for PropLocal.v. *)
From Verif Require Import SafeAny MemFacts ClaimFacts.
From Verif Require Export Local.
From Coq Require Import ZifyBool ZifyNat ZifyN.
Open Scope N_scope.
Set Implicit Arguments.

(** the blocks in B keep their contents *)
Definition kept (B : N -> Prop) (v v' : ev) : Prop := forall j b, B j -> block_is v j b -> block_is v' j b.
Lemma kept_refl B v : kept B v v. Proof. intros j b _ H. exact H. Qed.
Lemma kept_trans B a b d : kept B a b -> kept B b d -> kept B a d.
Proof. intros H1 H2 j x Hj H. exact (H2 j x Hj (H1 j x Hj H)). Qed.
Definition fr {A} (B : N -> Prop) (m : M ev A) (v : ev) : Prop := kept B v (snd (m v)).
Lemma fr_bind B A A' (m : M ev A) (f : A -> M ev A') v : fr B m v -> (forall a v', m v = (Ret a, v') -> fr B (f a) v') -> fr B (bind m f) v.
Proof.
  unfold fr, bind. intros H1 H2. destruct (m v) as [[a|k| |] v1]; cbn in *; try exact H1. exact (kept_trans H1 (H2 a v1 eq_refl)).
Qed.
Lemma fr_lift B A (o : outcome A) v : fr B (lift o) v. Proof. apply kept_refl. Qed.
Lemma fr_reads B A (g : ev -> outcome A) v : fr B (reads g) v. Proof. apply kept_refl. Qed.
Lemma fr_ret B A (a : A) v : fr B (ret a) v. Proof. apply kept_refl. Qed.
Lemma fr_set_len B n v : fr B (set_len n) v. Proof. intros j b _ H. exact H. Qed.
Lemma fr_id B A (m : M ev A) v : snd (m v) = v -> fr B m v. Proof. unfold fr. intros ->. apply kept_refl. Qed.
Lemma nthN_lt A (l : list A) i x : nthN l i = Some x -> i < lenN l.
Proof. unfold nthN, lenN. intros H. assert (N.to_nat i < length l)%nat by (apply nth_error_Some; congruence). lia. Qed.
Lemma nthN_app1 A (l l2 : list A) i x : nthN l i = Some x -> nthN (l ++ l2) i = Some x.
Proof. intros H. pose proof (nthN_lt _ _ H) as G. unfold nthN, lenN in *. rewrite nth_error_app1 by lia. exact H. Qed.
Lemma nthN_firstn A (l : list A) i k x : i < k -> nthN l i = Some x -> nthN (firstn (N.to_nat k) l) i = Some x.
Proof.
  intros Hk H. unfold nthN in *. rewrite <- (firstn_skipn (N.to_nat k) l) in H. pose proof (nthN_lt l i) as G. unfold nthN, lenN in G.
  rewrite nth_error_app1 in H; [exact H|]. rewrite firstn_skipn in H. specialize (G _ H). rewrite firstn_length. lia.
Qed.
Lemma nthN_updN A (l : list A) w b i : i <> w -> nthN (updN l w b) i = nthN l i.
Proof.
  unfold nthN, updN. intros H. assert (N.to_nat i <> N.to_nat w) by lia. generalize dependent (N.to_nat i). generalize (N.to_nat w). clear.
  intros w i. revert l w. induction i as [|i IH]; intros [|x l] [|w] H; cbn; try reflexivity; try congruence. apply IH. congruence.
Qed.
Lemma fr_store_u (B : N -> Prop) w b v : ~ B w -> fr B (store_unchecked w b) v.
Proof.
  intros Hw j x Hj H. unfold store_unchecked, block_is in *. destruct (_ <? _); [|exact H]. cbn. rewrite nthN_updN; [exact H|congruence].
Qed.
Lemma fr_store (B : N -> Prop) w b v : ~ B w -> fr B (store w b) v.
Proof.
  intros Hw j x Hj H. unfold store, block_is in *. destruct (_ <? _); [|exact H]. cbn. rewrite nthN_updN; [exact H|congruence].
Qed.
Section L.
  Context {T : Type} (c : cfg) (E : enumlike T).
  Hypothesis Hc : cfg_ok c.
  Hypothesis Hcomp : compiles c E = true.
  Hypothesis Hai : alloc_isize c.
  Local Notation P := (EPB c E).
  Local Notation WF := (WF c E).
  Let HP : 1 <= P := Ppos_any Hc Hcomp Hai.

  Lemma fr_set_u (B : N -> Prop) i d v : ~ B (i / P) -> fr B (set_raw_unchecked c E i d) v.
  Proof.
    intros H. unfold set_raw_unchecked, block_index.
    apply fr_bind; [apply fr_reads|intros]. apply fr_bind; [apply fr_lift|intros]. apply fr_bind; [apply fr_store_u; exact H|intros].
    apply fr_bind; [apply fr_reads|intros]. apply fr_bind; [apply fr_lift|intros]. apply fr_store_u; exact H.
  Qed.
  Lemma fr_set_raw (B : N -> Prop) i d v : (i < len v -> ~ B (i / P)) -> fr B (set_raw c E i d) v.
  Proof. intros H. unfold fr, set_raw. destruct (N.leb_spec (len v) i) as [G|G]; [apply kept_refl|]. apply fr_set_u. apply H. exact G. Qed.
  Lemma fr_ensure B k v : fr B (on_storage (vec_ensure c k)) v.
  Proof.
    intros j b Hj H. unfold on_storage, vec_ensure. destruct (_ <=? _); [destruct v as [[d cap] n]; exact H|]. cbn. destruct (_ <? _); [exact H|]. destruct (_ <? _); exact H.
  Qed.
  Lemma fr_more B l v : fr B (on_storage (vec_extend_from c l)) v.
  Proof.
    intros j b Hj H. unfold on_storage, vec_extend_from, vec_ensure. destruct (_ <=? _); [cbn; apply nthN_app1; exact H|].
    cbn. destruct (_ <? _); [exact H|]. destruct (_ <? _); [exact H|]. cbn. apply nthN_app1. exact H.
  Qed.
  Lemma fr_vpush B x v : fr B (on_storage (vec_push c x)) v. Proof. exact (@fr_more B [x] v). Qed.
  Lemma fr_resize (B : N -> Prop) n x v : (forall j, B j -> j < vlen (storage v) -> j < n) -> fr B (on_storage (vec_resize c n x)) v.
  Proof.
    intros Hn j b Hj H. unfold on_storage, vec_resize, vec_ensure. destruct (N.leb_spec n (vlen (storage v))) as [G|G].
    - cbn. apply nthN_firstn; [|exact H]. apply (Hn j Hj). exact (nthN_lt _ _ H).
    - destruct (_ <=? _); [cbn; apply nthN_app1; exact H|]. cbn. destruct (_ <? _); [exact H|]. destruct (_ <? _); [exact H|]. cbn. apply nthN_app1. exact H.
  Qed.
  Lemma fr_fix (B : N -> Prop) v : (forall j, B j -> j < vlen (storage v) -> j < blocks_for_elements c E (len v)) -> fr B (fix_storage c E) v.
  Proof. intros H j b Hj G. unfold fix_storage, block_is. cbn. apply nthN_firstn; [|exact G]. apply (H j Hj). exact (nthN_lt _ _ G). Qed.
  Lemma amount_div k v : WF v -> amount c E k = true -> num v + k <= usize_max c -> (num v + k) / P + 1 <= usize_max c.
  Proof.
    intros Hw Hk Hu. pose proof (WF_RC Hc (comp0 Hc Hcomp Hai) (@zero_d T c E Hc Hcomp Hai) (proj2 (WF0 Hc Hcomp Hai v) Hw)) as R.
    pose proof (amount_fits Hc (comp0 Hc Hcomp Hai) Hai (@zero_d T c E Hc Hcomp Hai) R Hk) as G. rewrite <- (rc_num R) in G. unfold reserve_fits in G. change (EPB c (zeroed E)) with P in G.
    assert (2 <= usize_max c). { clear - Hc. unfold usize_max. destruct (ok_usize Hc) as [-> | ->]; [change (2 ^ 32 - 1) with 4294967295|change (2 ^ 64 - 1) with 18446744073709551615]; lia. }
    destruct G as [G|G].
    - assert ((num v + k) / P <= usize_max c / P) by (apply N.div_le_mono; lia). assert (usize_max c / P <= usize_max c / 2) by (apply N.div_le_compat_l; lia).
      pose proof (N.mul_div_le (usize_max c) 2 ltac:(lia)). lia.
    - assert ((num v + k) / P <= num v + k); [|lia]. apply N.div_le_upper_bound; [lia|]. rewrite <- (N.mul_1_l (num v + k)) at 1. apply N.mul_le_mono_r. exact HP.
  Qed.
  Lemma fr_reserve (B : N -> Prop) k v : WF v -> amount c E k = true -> (forall j, B j -> j <= (num v + k) / P) -> fr B (reserve c E k) v.
  Proof.
    intros Hw Hk H. unfold fr, reserve, bind, reads, lift. destruct (N.leb_spec (len v + k) (usize_max c)) as [Hu|Hu]; [|apply kept_refl].
    rewrite uadd_exact by (apply amount_div; assumption). apply fr_resize. intros j Hj _. specialize (H j Hj). unfold len. lia.
  Qed.
  Lemma fr_grow B v : fr B (grow_if_needed c E) v.
  Proof. unfold fr, grow_if_needed. destruct (_ && _); [apply fr_vpush|apply kept_refl]. Qed.
  Lemma fr_push (B : N -> Prop) x v : ~ B (num v / P) -> fr B (push c E x) v.
  Proof.
    intros H. unfold push. apply fr_bind; [apply fr_grow|]. intros u v1 E1. pose proof (grow_num c E v) as Hn. rewrite E1 in Hn. cbn in Hn.
    apply fr_bind; [apply fr_reads|]. intros i v2 E2. injection E2 as <- <-. apply fr_bind; [apply fr_lift|]. intros n v3 E3. unfold lift in E3. injection E3 as E3 <-.
    apply fr_bind; [apply fr_set_len|]. intros u4 v4 E4. apply fr_set_raw. intros _. rewrite Hn. exact H.
  Qed.
  Lemma fr_known (B : N -> Prop) sl : (forall j, B j -> j < sl / P) -> forall k i pan l v, sl + i + N.of_nat k <= usize_max c -> fr B (extend_known c E k i sl pan l) v.
  Proof.
    intros H. induction k as [|k IH]; intros i pan l v Hu; cbn [extend_known]; [apply fr_ret|].
    rewrite uadd_exact by lia. apply fr_bind; [apply fr_lift|]. intros idx v1 E1. injection E1 as <- <-.
    destruct l as [|x l]; [destruct pan; apply fr_lift|]. apply fr_bind; [|intros; apply IH; lia].
    apply fr_set_raw. intros _ G. apply H in G. assert (sl / P <= (sl + i) / P) by (apply N.div_le_mono; lia). lia.
  Qed.
  Lemma fr_rest (B : N -> Prop) pan l : forall v, (forall j, B j -> j < num v / P) -> fr B (extend_rest c E pan l) v.
  Proof.
    induction l as [|x l IH]; intros v H; cbn [extend_rest]; [destruct pan; [apply fr_lift|apply fr_ret]|].
    apply fr_bind; [apply fr_push; intros G; apply H in G; lia|]. intros [] v1 E1. apply push_num in E1. apply IH.
    intros j Hj. apply H in Hj. rewrite E1. assert (num v / P <= (num v + 1) / P) by (apply N.div_le_mono; lia). lia.
  Qed.
  Lemma rest_grows pan l : forall v v', extend_rest c E pan l v = (Ret tt, v') -> num v <= num v'.
  Proof.
    induction l as [|x l IH]; intros v v'; cbn [extend_rest]; [destruct pan; [discriminate|]; intros [= <-]; lia|].
    unfold bind. destruct (push c E x v) as [[[]| | |] v1] eqn:E1; try discriminate. apply push_num in E1. intros G. apply IH in G. lia.
  Qed.
  Lemma fr_extend (B : N -> Prop) it v : WF v -> amount c E (lower it) = true -> (forall j, B j -> j < num v / P) -> fr B (extend c E it) v.
  Proof.
    intros Hw Hk H. unfold extend. apply fr_bind; [apply fr_reads|]. intros sl v0 E0. injection E0 as <- <-.
    assert (Hdm : forall k, num v / P <= (num v + k) / P) by (intros; apply N.div_le_mono; lia).
    apply fr_bind. { apply fr_reserve; [exact Hw|exact Hk|]. intros j Hj. apply H in Hj. specialize (Hdm (lower it)). lia. }
    intros [] v1 E1. pose proof (any_reserve Hc Hcomp Hai Hw Hk) as G. rewrite E1 in G. destruct G as (G1 & G2 & G3 & G4).
    apply fr_bind; [apply fr_reads|]. intros n v2 E2. unfold reads in E2. injection E2 as E2 <-. rewrite G2, uadd_exact in E2 by exact G4. injection E2 as <-.
    apply fr_bind; [apply fr_set_len|]. intros [] v3 E3. injection E3 as <-.
    apply fr_bind. { apply fr_known; [exact H|unfold len; lia]. }
    intros r v4 E4. apply fr_rest. pose proof (MemFacts.known_num c E (N.to_nat (lower it)) 0 (len v) (ends_in_panic it) (items it) (mkEv (storage v1) (num v + lower it))) as Hn.
    rewrite E4 in Hn. cbn in Hn. intros j Hj. rewrite Hn. apply H in Hj. specialize (Hdm (lower it)). lia.
  Qed.
  Lemma extend_grows it v v' : WF v -> amount c E (lower it) = true -> extend c E it v = (Ret tt, v') -> num v <= num v'.
  Proof.
    intros Hw Hk. unfold extend, bind at 1, reads at 1. unfold bind at 1. pose proof (any_reserve Hc Hcomp Hai Hw Hk) as G.
    destruct (reserve c E (lower it) v) as [[[]| | |] v1]; try discriminate. destruct G as (G1 & G2 & G3 & G4).
    unfold bind at 1, reads. rewrite G2, uadd_exact by exact G4. unfold bind at 1, set_len. unfold bind.
    pose proof (MemFacts.known_num c E (N.to_nat (lower it)) 0 (len v) (ends_in_panic it) (items it) (mkEv (storage v1) (num v + lower it))) as Hn.
    destruct (extend_known c E _ _ _ _ _ _) as [[r| | |] v2]; try discriminate. cbn in Hn. intros H. apply rest_grows in H. lia.
  Qed.

  (** insert *)
  Lemma num_set_u i d v : num (snd (set_raw_unchecked c E i d v)) = num v.
  Proof.
    unfold set_raw_unchecked, block_index, bind, reads, lift. destruct (load_unchecked _ v); try reflexivity. destruct (shl c _ _); try reflexivity.
    match goal with |- context [store_unchecked ?w ?b v] => pose proof (store_u_num w b v) as H1; destruct (store_unchecked w b v) as [[u| | |] v1]; cbn in *; try exact H1 end.
    destruct (load_unchecked _ v1); try exact H1. destruct (shl c _ _); try exact H1. rewrite store_u_num. exact H1.
  Qed.
  Lemma fr_insert_slow (B : N -> Prop) : forall k i prev v, (forall a, i <= a -> a < i + N.of_nat k -> ~ B (a / P)) -> fr B (insert_slow c E k i prev) v.
  Proof.
    induction k as [|k IH]; intros i prev v H; cbn [insert_slow]; [apply fr_ret|]. apply fr_bind; [apply fr_reads|]. intros nx v1 _.
    apply fr_bind; [apply fr_set_u, H; lia|]. intros u v2 _. apply IH. intros a H1 H2. apply H; lia.
  Qed.
  Lemma insert_slow_num : forall k i prev v r v', insert_slow c E k i prev v = (Ret r, v') -> num v' = num v /\ fst r = i + N.of_nat k.
  Proof.
    induction k as [|k IH]; intros i prev v r v'; cbn [insert_slow].
    - intros [= <- <-]. cbn. split; [reflexivity|lia].
    - unfold bind, reads. destruct (get_raw_unchecked c E i v); try discriminate. pose proof (num_set_u i prev v) as H.
      destruct (set_raw_unchecked c E i prev v) as [[u| | |] v1]; try discriminate. cbn in H. intros G. apply IH in G. destruct G as [G1 G2]. split; [congruence|lia].
  Qed.
  Lemma fr_insert_blocks (B : N -> Prop) : forall k i prev v, (forall a, i <= a -> a < i + N.of_nat k -> ~ B a) -> fr B (insert_blocks c E k i prev) v.
  Proof.
    induction k as [|k IH]; intros i prev v H; cbn [insert_blocks]; [apply fr_ret|]. apply fr_bind; [apply fr_reads|]. intros b v1 _.
    apply fr_bind; [apply fr_lift|]. intros r v2 _. apply fr_bind; [apply fr_store, H; lia|]. intros u v3 _. apply IH. intros a H1 H2. apply H; lia.
  Qed.
  Lemma fr_insert (B : N -> Prop) i x v : (forall j, N.min i (num v) / P <= j -> j <= num v / P -> ~ B j) -> fr B (insert c E i x) v.
  Proof.
    intros H. unfold insert. apply fr_bind. { apply fr_push. apply H; [apply N.div_le_mono; lia|lia]. }
    intros [] v1 E1. apply push_num in E1. cbv zeta. apply fr_bind; [apply fr_reads|]. intros sl v2 E2. injection E2 as <- <-. unfold len. rewrite E1.
    apply fr_bind.
    { destruct (_ <? _); [|apply fr_ret]. apply fr_bind; [apply fr_lift|]. intros l0 v3 E3. injection E3 as _ <-. apply fr_bind; [apply fr_lift|]. intros l1 v4 _.
      apply fr_insert_slow. intros a H1 H2. apply H; apply N.div_le_mono; lia. }
    intros r v3 E3. assert (Hr : num v3 = num v + 1 /\ i <= fst r).
    { destruct (_ <? _); [|injection E3 as <- <-; cbn; lia]. unfold bind, lift in E3. destruct (usub c i _); try discriminate. destruct (uadd c _ _); try discriminate.
      apply insert_slow_num in E3. lia. }
    destruct Hr as [Hr1 Hr2]. apply fr_bind; [apply fr_reads|]. intros sl v4 E4. injection E4 as <- <-. unfold len. rewrite Hr1.
    destruct (N.ltb_spec (fst r) (num v + 1)) as [G|G]; [|apply fr_ret]. rewrite usub_exact by lia. apply fr_bind; [apply fr_lift|]. intros l v5 E5. injection E5 as <- <-.
    rewrite N.add_sub. unfold block_index. cbn [fst]. assert (Hd : i / P <= fst r / P) by (apply N.div_le_mono; lia).
    assert (Hd2 : fst r / P <= num v / P) by (apply N.div_le_mono; lia).
    apply fr_insert_blocks. intros a H1 H2. apply H; [rewrite N.min_l by lia; lia|lia].
  Qed.

  (** remove *)
  Lemma fr_remove_slow (B : N -> Prop) : forall k i v, (forall a, i <= a -> a < i + N.of_nat k -> ~ B (a / P)) -> fr B (remove_slow c E k i) v.
  Proof.
    induction k as [|k IH]; intros i v H; cbn [remove_slow]; [apply fr_ret|]. apply fr_bind; [apply fr_reads|]. intros nx v1 _.
    apply fr_bind; [apply fr_set_u, H; lia|]. intros u v2 _. apply IH. intros a H1 H2. apply H; lia.
  Qed.
  Lemma remove_slow_num : forall k i v r v', remove_slow c E k i v = (Ret r, v') -> num v' = num v /\ r = i + N.of_nat k.
  Proof.
    induction k as [|k IH]; intros i v r v'; cbn [remove_slow].
    - intros [= <- <-]. cbn. split; [reflexivity|lia].
    - unfold bind, reads. destruct (get_raw_unchecked c E (i + 1) v) as [d| | |]; try discriminate. pose proof (num_set_u i d v) as H.
      destruct (set_raw_unchecked c E i d v) as [[u| | |] v1]; try discriminate. cbn in H. intros G. apply IH in G. destruct G as [G1 G2]. split; [congruence|lia].
  Qed.
  Lemma fr_remove_blocks (B : N -> Prop) : forall k ib prev v, (forall a, ib <= a -> a < ib + N.of_nat k -> ~ B a) -> fr B (remove_blocks c E k ib prev) v.
  Proof.
    induction k as [|k IH]; intros ib prev v H; cbn [remove_blocks]; [apply fr_ret|]. cbv zeta. apply fr_bind; [apply fr_reads|]. intros b v1 _.
    apply fr_bind; [apply fr_lift|]. intros r v2 _. apply fr_bind; [apply fr_store, H; lia|]. intros u v3 _. apply IH. intros a H1 H2. apply H; lia.
  Qed.
  Lemma get_in i v x : (let! r := get c E i v in unwrap r) = Ret x -> i < num v.
  Proof.
    unfold get, get_raw. destruct (N.leb_spec (len v) i) as [H|H]; [discriminate|]. intros _. exact H.
  Qed.
  Lemma fr_remove (B : N -> Prop) i v : (i < num v -> forall j, i / P <= j -> j <= (num v - 1) / P -> ~ B j) -> fr B (remove c E i) v.
  Proof.
    intros H. unfold remove. apply fr_bind; [apply fr_reads|]. intros x v1 E1. unfold reads in E1. injection E1 as E1 <-. apply get_in in E1. specialize (H E1).
    apply fr_bind; [apply fr_reads|]. intros n v2 E2. unfold reads in E2. unfold len in E2. rewrite usub_exact in E2 by lia. injection E2 as <- <-.
    apply fr_bind; [apply fr_lift|]. intros bl v3 E3. injection E3 as _ <-. cbv zeta.
    apply fr_bind. { apply fr_remove_slow. intros a H1 H2. apply H; apply N.div_le_mono; lia. }
    intros i' v4 E4. apply remove_slow_num in E4. destruct E4 as [N4 I4].
    apply fr_bind; [apply fr_reads|]. intros la v5 E5. unfold reads, len in E5. rewrite N4, usub_exact in E5 by lia. injection E5 as <- <-.
    apply fr_bind; [apply fr_reads|]. intros prev v6 E6. unfold reads in E6. injection E6 as _ <-.
    apply fr_bind; [apply fr_reads|]. intros n1 v7 E7. unfold reads in E7. rewrite N4, usub_exact in E7 by lia. injection E7 as <- <-.
    apply fr_bind; [apply fr_set_len|]. intros u8 v8 E8. injection E8 as _ <-.
    apply fr_bind; [apply fr_reads|]. intros sl v9 E9. injection E9 as <- <-. unfold len. cbn [num].
    apply fr_bind; [|intros; apply fr_ret]. destruct (N.ltb_spec i' (num v - 1)) as [G|G]; [|apply fr_ret].
    rewrite usub_exact by lia. apply fr_bind; [apply fr_lift|]. intros l v10 E10. injection E10 as <- <-. unfold block_index. cbn [fst].
    assert (i / P <= i' / P) by (apply N.div_le_mono; lia). assert (i' / P <= (num v - 1 - 1) / P) by (apply N.div_le_mono; lia).
    assert ((num v - 1 - 1) / P <= (num v - 1) / P) by (apply N.div_le_mono; lia).
    apply fr_remove_blocks. intros a A1 A2. apply H; lia.
  Qed.

  (** swap, retain, for_each *)
  Lemma set_raw_num i d v : num (snd (set_raw c E i d v)) = num v.
  Proof. unfold set_raw. destruct (_ <=? _); [reflexivity|apply num_set_u]. Qed.
  Lemma raw_in i v x : (let! r := get_raw c E i v in unwrap r) = Ret x -> i < num v.
  Proof. unfold get_raw. destruct (N.leb_spec (len v) i) as [H|H]; [discriminate|]. intros _. exact H. Qed.
  Lemma fr_swap (B : N -> Prop) a b v : (a < num v -> b < num v -> ~ B (a / P) /\ ~ B (b / P)) -> fr B (swap c E a b) v.
  Proof.
    intros H. unfold swap. apply fr_bind; [apply fr_reads|]. intros x v1 E1. unfold reads in E1. injection E1 as E1 <-. apply raw_in in E1.
    apply fr_bind; [apply fr_reads|]. intros y v2 E2. unfold reads in E2. injection E2 as E2 <-. apply raw_in in E2. destruct (H E1 E2) as [K1 K2].
    apply fr_bind; [apply fr_set_raw; auto|]. intros u v3 _. apply fr_set_raw. auto.
  Qed.
  Lemma storage_pop v : storage (snd (pop c E v)) = storage v.
  Proof.
    unfold pop. destruct (is_empty v); [reflexivity|]. unfold bind, lift, reads. destruct (usub c _ _) as [i| | |]; try reflexivity.
    destruct (let! r := get c E i v in unwrap r); reflexivity.
  Qed.
  Lemma fr_storage B A (m : M ev A) v : storage (snd (m v)) = storage v -> fr B m v.
  Proof. intros H j b _ G. unfold block_is in *. rewrite H. exact G. Qed.
  Lemma fr_swap_remove (B : N -> Prop) i v : (i < num v -> ~ B (i / P) /\ ~ B ((num v - 1) / P)) -> fr B (swap_remove c E i) v.
  Proof.
    intros H. unfold swap_remove. apply fr_bind; [apply fr_reads|]. intros l v1 E1. unfold reads in E1. injection E1 as E1 <-.
    apply fr_bind.
    - apply fr_swap. intros H1 H2. unfold len in E1. rewrite usub_exact in E1 by lia. injection E1 as <-. auto.
    - intros u v2 _. apply fr_bind; [apply fr_storage, storage_pop|]. intros. apply fr_lift.
  Qed.
  Lemma fr_retain_loop St (f : St -> T -> option (bool * St)) (B : N -> Prop) n0 : (forall a, a < n0 -> ~ B (a / P)) -> forall k i s st v, num v = n0 -> fr B (retain_loop c E f k i s st) v.
  Proof.
    intros H. induction k as [|k IH]; intros i s st v Hn; cbn [retain_loop]; [apply fr_ret|]. apply fr_bind; [apply fr_reads|]. intros x v1 E1. unfold reads in E1. injection E1 as _ <-.
    destruct (f st x) as [[[|] st']|]; [|apply IH; exact Hn|apply fr_lift].
    apply fr_bind; [apply fr_set_raw; intros G; apply H; unfold len in G; lia|]. intros u v2 E2. apply IH. pose proof (set_raw_num s (to_d E x) v) as G. unfold set in E2. rewrite E2 in G. cbn in G. congruence.
  Qed.
  Lemma fr_retain St (f : St -> T -> option (bool * St)) (B : N -> Prop) st v : (forall a, a < num v -> ~ B (a / P)) -> fr B (retain c E f st) v.
  Proof.
    intros H. unfold retain. apply fr_bind; [apply fr_reads|]. intros l v1 E1. injection E1 as <- <-. apply fr_bind; [apply (@fr_retain_loop St f B (num v) H); reflexivity|].
    intros r v2 _. apply fr_bind; [apply fr_set_len|]. intros. apply fr_ret.
  Qed.
  Lemma fr_each_loop St (f : St -> T -> option (T * St)) (B : N -> Prop) n0 : (forall a, a < n0 -> ~ B (a / P)) -> forall k i st v, num v = n0 -> fr B (for_each_loop c E f k i st) v.
  Proof.
    intros H. induction k as [|k IH]; intros i st v Hn; cbn [for_each_loop]; [apply fr_ret|]. apply fr_bind; [apply fr_reads|]. intros x v1 E1. unfold reads in E1. injection E1 as _ <-.
    destruct (f st x) as [[y st']|]; [|apply fr_lift].
    apply fr_bind; [apply fr_set_raw; intros G; apply H; unfold len in G; lia|]. intros u v2 E2. apply IH. pose proof (set_raw_num i (to_d E y) v) as G. unfold set in E2. rewrite E2 in G. cbn in G. congruence.
  Qed.
  Lemma fr_for_each St (f : St -> T -> option (T * St)) (B : N -> Prop) st v : (forall a, a < num v -> ~ B (a / P)) -> fr B (for_each c E f st) v.
  Proof.
    intros H. unfold for_each. apply fr_bind; [apply fr_reads|]. intros l v1 E1. injection E1 as <- <-. apply (@fr_each_loop St f B (num v) H). reflexivity.
  Qed.
End L.
