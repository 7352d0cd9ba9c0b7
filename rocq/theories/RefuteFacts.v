(** RefuteFacts.v -- counterexamples: the full statements of Full.v fail. *)
From Verif Require Export WidthFacts Full.
From Coq Require Import ZifyBool ZifyNat ZifyN.
Open Scope N_scope.
Set Implicit Arguments.
Unset Strict Implicit.

Definition big_enum : N := 2 ^ 33.
Definition f33 (x : N) : Fin big_enum := match mkFin big_enum x with Some y => y | None => fv big_enum 0 eq_refl end.

Lemma C01_not : ~ C01_full.
Proof.
  intros H. specialize (H _ u64_release (fin big_enum) (proj1 u64_release_ok) eq_refl). destruct H as [_ [H _]].
  vm_compute in H. apply H. reflexivity.
Qed.

(** insert past the end appends instead of panicking *)
Lemma C04_not : ~ C04_full.
Proof.
  intros H. specialize (H _ u32_debug (fin 5) s_u32d_5 (new_vec u32_debug) new_list 20 (f5 1) (proj1 new_vec_debug)).
  assert (Hi : 20 <= usize_max u32_debug) by (vm_compute; discriminate). specialize (H Hi).
  assert (Ho : fst (insert u32_debug (fin 5) 20 (f5 1) (new_vec u32_debug)) = Ret tt) by (vm_compute; reflexivity).
  destruct (insert u32_debug (fin 5) 20 (f5 1) (new_vec u32_debug)) as [o v']. cbn [fst] in Ho. subst o. cbn [result] in H.
  destruct H as [H _]. vm_compute in H. apply H. reflexivity.
Qed.
(** and with elements as wide as the blocks, insert within bounds corrupts (release) or panics (debug) *)
Lemma insert_wide_release : exists v', insert u8_release (fin 256) 1 (f256 5) (wide_vec u8_release) = (Ret tt, v') /\
  to_vec u8_release (fin 256) v' = Ret (map f256 [7; 205; 201; 13]).
Proof. eexists. split; [vm_compute; reflexivity|vm_compute; reflexivity]. Qed.
Lemma insert_wide_debug : exists v', insert u8_debug (fin 256) 1 (f256 5) (wide_vec u8_debug) = (Panic POverflow, v') /\
  to_vec u8_debug (fin 256) v' = Ret (map f256 [7; 200; 9; 5]).
Proof. eexists. split; [vm_compute; reflexivity|vm_compute; reflexivity]. Qed.

(** remove shifts dirty unused bits into the last element *)
Definition dirty8_prog : list (op (Fin 8)) := [OFromSlice (map f8 (repeat 0 19)); OInsert 0 0 (f8 7); OPush 0 (f8 0)].
Definition dirty8 : ev := after u32_release (fin 8) dirty8_prog.
Definition dirty8_list : list (Fin 8) := map f8 (7 :: repeat 0 20).
Lemma dirty8_holds : holds u32_release (fin 8) dirty8 dirty8_list.
Proof. apply (holds_hash s_u32r_8); [apply validb_valid; vm_compute; reflexivity|vm_compute; reflexivity]. Qed.
Lemma C05_not : ~ C05_full.
Proof.
  intros H. specialize (H _ u32_release (fin 8) s_u32r_8 dirty8 dirty8_list 0 (f8 7) dirty8_holds eq_refl).
  assert (Ho : fst (remove u32_release (fin 8) 0 dirty8) = Ret (f8 7)) by (vm_compute; reflexivity).
  assert (Hg : get_raw u32_release (fin 8) 19 (snd (remove u32_release (fin 8) 0 dirty8)) = Ret (Some 3)) by (vm_compute; reflexivity).
  destruct (remove u32_release (fin 8) 0 dirty8) as [o v']. cbn [fst snd] in Ho, Hg. subst o. cbn [result_noalloc] in H.
  destruct H as [_ [_ H]]. specialize (H 19). rewrite Hg in H. vm_compute in H. discriminate.
Qed.

Definition two5 : ev := after u32_release (fin 5) [OFromSlice (map f5 [1; 2])].
Lemma two5_holds : holds u32_release (fin 5) two5 (map f5 [1; 2]).
Proof. apply (holds_hash s_u32r_5); [apply validb_valid; vm_compute; reflexivity|vm_compute; reflexivity]. Qed.
Lemma C09_not : ~ C09_full.
Proof.
  intros H. specialize (H _ u32_release (fin 5) s_u32r_5 (ev_new u32_release) two5 [] (map f5 [1; 2]) (proj1 (new_ok s_u32r_5)) two5_holds).
  assert (Ho : fst (append u32_release (fin 5) (ev_new u32_release, two5)) = Ret tt) by (vm_compute; reflexivity).
  assert (Hg : len (snd (snd (append u32_release (fin 5) (ev_new u32_release, two5)))) = 2) by (vm_compute; reflexivity).
  destruct (append u32_release (fin 5) (ev_new u32_release, two5)) as [o s]. cbn [fst snd] in Ho, Hg. subst o. cbn [result] in H.
  destruct H as [_ H]. apply (holds_len s_u32r_5) in H. rewrite Hg in H. discriminate.
Qed.
Lemma C10_not : ~ C10_full.
Proof.
  intros H. specialize (H _ u32_release (fin 5) s_u32r_5 two5 (map f5 [1; 2]) 1 two5_holds).
  assert (Hi : 1 <= lenN (map f5 [1; 2])) by (vm_compute; discriminate). specialize (H Hi).
  assert (Ho : fst (split_off u32_release (fin 5) 1 two5) = UB) by (vm_compute; reflexivity).
  destruct (split_off u32_release (fin 5) 1 two5) as [o v']. cbn [fst] in Ho. subst o. exact H.
Qed.
Lemma C12_not : ~ C12_full.
Proof.
  intros H. specialize (H _ 32 64 false false (2 ^ 40) (fin 5) s_u32r_5 (f5 1) 300). cbv zeta in H.
  assert (Hi : 300 <= usize_max (std_cfg 32 64 false false (2 ^ 40))) by (vm_compute; discriminate).
  destruct (from_elem (std_cfg 32 64 false false (2 ^ 40)) (fin 5) (f5 1) 300) as [v|k| |] eqn:Hv; [|vm_compute in Hv; discriminate..].
  specialize (H v Hi eq_refl).
  assert (Hcap : vcap (storage v) = 960) by (vm_compute in Hv; injection Hv as <-; reflexivity).
  rewrite Hcap in H. vm_compute in H. apply H. reflexivity.
Qed.
Lemma C13_not_at k : k = usize_max u8_release -> ~ C13_full.
Proof.
  intros Ek H. assert (Hk1 : 1 <= k) by (rewrite Ek; vm_compute; discriminate).
  specialize (H _ u8_release (fin 256) s_u8r_256 (ev_new u8_release) [] (mkIter (repeat (f256 1) (N.to_nat k)) k false) (proj1 (new_ok s_u8r_256))).
  cbn [lower items] in H. rewrite lenN_repeat, N2Nat.id in H. rewrite <- Ek in H. specialize (H (N.le_refl _) (N.le_refl _)).
  assert (GU : fst (extend u8_release (fin 256) (mkIter (repeat (f256 1) (N.to_nat k)) k false) (ev_new u8_release)) = UB).
  { apply (extend_UB s_u8r_256 (l := [])); cbn [lower items].
    - reflexivity.
    - reflexivity.
    - apply (new_ok s_u8r_256).
    - destruct (N.to_nat k) eqn:En; [lia|discriminate].
    - lia.
    - exact Ek. }
  destruct (extend u8_release (fin 256) (mkIter (repeat (f256 1) (N.to_nat k)) k false) (ev_new u8_release)) as [o v']. cbn [fst] in GU. subst o. exact H.
Qed.
Lemma C13_not : ~ C13_full. Proof. exact (C13_not_at eq_refl). Qed.
Definition one5_prog : list (op (Fin 5)) := [OFromSlice (map f5 [1; 2]); OPop 0].
Definition one5 : ev := after u32_release (fin 5) one5_prog.
Lemma one5_holds : holds u32_release (fin 5) one5 (map f5 [1]).
Proof. apply (holds_hash s_u32r_5); [apply validb_valid; vm_compute; reflexivity|vm_compute; reflexivity]. Qed.
Lemma C14_not : ~ C14_full.
Proof.
  intros H. specialize (H _ u32_release (fin 5) s_u32r_5 one5 (map f5 [1]) (mkIter [] 1 true) one5_holds).
  cbn [lower items] in H. assert (Hi : 1 <= usize_max u32_release) by (vm_compute; discriminate). specialize (H Hi).
  assert (Ho : fst (extend u32_release (fin 5) (mkIter [] 1 true) one5) = Panic PUser) by (vm_compute; reflexivity).
  assert (Hg : len (snd (extend u32_release (fin 5) (mkIter [] 1 true) one5)) = 2) by (vm_compute; reflexivity).
  destruct (extend u32_release (fin 5) (mkIter [] 1 true) one5) as [o v']. cbn [fst snd] in Ho, Hg. subst o. cbn [result] in H.
  destruct H as [l1 [l2 [H1 H2]]]. symmetry in H1. apply app_eq_nil in H1. destruct H1 as [-> _].
  apply (holds_len s_u32r_5) in H2. rewrite Hg in H2. discriminate.
Qed.
Lemma lawful_bounded T (E : enumlike T) : lawful E -> bounded E. Proof. intros [H _]. exact H. Qed.
Lemma C21_not : ~ C21_full.
Proof.
  intros H. destruct s_u32r_5 as [H1 [H2 [H3 H4]]].
  apply (H _ u32_release (fin 5) H1 H2 H3 (lawful_bounded H4) [OFromSlice (map f5 [1; 2]); OSplitOff 0 1]); vm_compute; auto.
Qed.
(** other programs of safe calls with undefined behaviour *)
Lemma UB_append : In MUB (seen u32_release (fin 5) [ONew; OFromSlice (map f5 [1; 2]); OAppend 0 1; ORead 1 0]).
Proof. vm_compute. auto 10. Qed.
Lemma agrees_completed T (ms : list (mout T)) rs : agrees ms rs -> Forall completed ms -> ms = map (@MRes T) rs.
Proof.
  induction 1 as [|r ms rs Ha IH|ms rs|ms rs]; intros HF; cbn; [reflexivity|..]; inversion HF as [|m ms' Hm HF' Heq]; subst.
  - rewrite IH by assumption. reflexivity.
  - destruct Hm as [r Hr]. discriminate.
  - destruct Hm as [r Hr]. discriminate.
Qed.
Definition remove_prog : list (op (Fin 8)) := dirty8_prog ++ [ORemove 0 0; ORead 0 19].
Lemma C22_not : ~ C22_full.
Proof.
  intros H. specialize (H _ u32_release (fin 8) s_u32r_8 remove_prog eq_refl eq_refl).
  apply agrees_completed in H.
  - vm_compute in H. discriminate.
  - vm_compute. repeat (constructor; [eexists; reflexivity|]). constructor.
Qed.
Lemma s_u32r_256 : setting u32_release (fin 256). Proof. apply fin_setting; [apply u32_release_ok|reflexivity|discriminate]. Qed.
Lemma C23_not : ~ C23_full.
Proof.
  intros H. specialize (H _ u8_release u32_release (fin 256) s_u8r_256 s_u32r_256
    [OFromSlice (map f256 [7; 200; 9]); OInsert 0 1 (f256 5); ORead 0 1] eq_refl eq_refl eq_refl).
  assert (H1 : Forall completed (fst (m_run u8_release (fin 256) [] [OFromSlice (map f256 [7; 200; 9]); OInsert 0 1 (f256 5); ORead 0 1]))).
  { vm_compute. repeat (constructor; [eexists; reflexivity|]). constructor. }
  assert (H2 : Forall completed (fst (m_run u32_release (fin 256) [] [OFromSlice (map f256 [7; 200; 9]); OInsert 0 1 (f256 5); ORead 0 1]))).
  { vm_compute. repeat (constructor; [eexists; reflexivity|]). constructor. }
  specialize (H H1 H2). vm_compute in H. discriminate.
Qed.
Lemma C26_not : ~ C26_full.
Proof.
  intros H. set (k := usize_max u8_release - 3).
  specialize (H _ u8_release (fin 256) s_u8r_256 (wide_vec u8_release) wide_list k wide_release).
  assert (Hi : k <= usize_max u8_release) by (vm_compute; discriminate). specialize (H Hi).
  assert (Ho : fst (reserve u8_release (fin 256) k (wide_vec u8_release)) = Ret tt) by (vm_compute; reflexivity).
  assert (Hg : get_raw u8_release (fin 256) 0 (snd (reserve u8_release (fin 256) k (wide_vec u8_release))) = UB) by (vm_compute; reflexivity).
  destruct (reserve u8_release (fin 256) k (wide_vec u8_release)) as [o v']. cbn [fst snd] in Ho, Hg. subst o. cbn [result] in H.
  destruct H as [[_ H] _]. specialize (H 0). rewrite Hg in H. discriminate.
Qed.
Definition cap16 : ev := after u32_release (fin 4) [OWithCapacity 16].
Lemma cap16_holds : holds u32_release (fin 4) cap16 [].
Proof. apply (holds_hash s_u32r_4); [apply validb_valid; vm_compute; reflexivity|vm_compute; reflexivity]. Qed.
Lemma C27_not : ~ C27_full.
Proof.
  intros H. specialize (H _ u32_release (fin 4) s_u32r_4 cap16 [] (repeat (f4 1) 16) cap16_holds).
  assert (Hi : lenN (@nil (Fin 4)) + lenN (repeat (f4 1) 16) <= capacity u32_release (fin 4) cap16) by (vm_compute; discriminate).
  specialize (H Hi). destruct H as [v' [H1 [_ H2]]].
  assert (Hg : vcap (storage (snd (extend u32_release (fin 4) (exact_iter (repeat (f4 1) 16)) cap16))) = 2) by (vm_compute; reflexivity).
  rewrite H1 in Hg. cbn [snd] in Hg. unfold same_allocation in H2. rewrite Hg in H2. vm_compute in H2. discriminate.
Qed.
Definition big_prog : list (op (Fin big_enum)) := [OFromSlice (map f33 [0; 0]); OSet 0 0 (f33 (2 ^ 32)); ORead 0 1].
Definition third (l : list (mout (Fin big_enum))) : N :=
  match l with [_; _; MRes (ROpt (Some y))] => to_d (fin big_enum) y | _ => 7 end.
Definition done_all T (l : list (mout T)) : bool :=
  forallb (fun m => match m with MRes _ => true | _ => false end) l.
Lemma done_all_completed T (l : list (mout T)) : done_all l = true -> Forall completed l.
Proof.
  unfold done_all. rewrite forallb_forall. intros Hd. apply Forall_forall. intros m Hm. specialize (Hd m Hm).
  destruct m as [r| | |]; [exists r; reflexivity|discriminate..].
Qed.
Lemma C29_not : ~ C29_full.
Proof.
  intros H. specialize (H _ u64_release (fin big_enum) (proj1 u64_release_ok) (roomy_isize (E := fin big_enum) (proj1 u64_release_ok) eq_refl (proj2 u64_release_ok)) eq_refl (fin_lawful _) eq_refl
    big_prog eq_refl).
  apply agrees_completed in H.
  - apply (f_equal third) in H. vm_compute in H. discriminate.
  - apply done_all_completed. vm_compute. reflexivity.
Qed.
(** the same elements as [dirty8], built without insert *)
Definition clean8 : ev := after u32_release (fin 8) [OFromSlice dirty8_list].
Lemma clean8_holds : holds u32_release (fin 8) clean8 dirty8_list.
Proof. apply (holds_hash s_u32r_8); [apply validb_valid; vm_compute; reflexivity|vm_compute; reflexivity]. Qed.
Lemma C39_not : ~ C39_full.
Proof.
  intros H. specialize (H _ u32_release (fin 8) s_u32r_8 dirty8 clean8 dirty8_list dirty8_holds clean8_holds [ORemove 0 0; ORead 0 19] eq_refl eq_refl).
  assert (H1 : Forall completed (fst (m_run u32_release (fin 8) [dirty8] [ORemove 0 0; ORead 0 19]))).
  { vm_compute. repeat (constructor; [eexists; reflexivity|]). constructor. }
  assert (H2 : Forall completed (fst (m_run u32_release (fin 8) [clean8] [ORemove 0 0; ORead 0 19]))).
  { vm_compute. repeat (constructor; [eexists; reflexivity|]). constructor. }
  specialize (H H1 H2). vm_compute in H. discriminate.
Qed.
Lemma C42_not : ~ C42_full.
Proof.
  intros H. specialize (H _ u8_release (fin 256) s_u8r_256 [wide_vec u8_release]
    (OExtend 0 (mkIter [] (usize_max u8_release - 3) true))).
  assert (Hv : Forall (valid u8_release (fin 256)) [wide_vec u8_release]) by (constructor; [apply wide_release|constructor]).
  specialize (H Hv eq_refl). set (o := OExtend 0 _) in H.
  assert (Hx : m_step u8_release (fin 256) [wide_vec u8_release] o =
    (MRes RPanic, [mkEv (mkRvec [] (vcap (storage (wide_vec u8_release)))) (usize_max u8_release)])).
  { unfold o, m_step, m_on. cbn [nth_error].
    rewrite (extend_broken s_u8r_256 (v := wide_vec u8_release) (l := wide_list)); try reflexivity; [exact wide_release|vm_compute; discriminate]. }
  rewrite Hx in H. specialize (H (or_introl eq_refl)). cbn [snd] in H. apply Forall_inv in H. rename H into Hb.
  destruct Hb as [_ [Hb _]]. vm_compute in Hb. apply Hb. reflexivity.
Qed.

(** 32-bit target, Vec<u32>, two variants: 2^32 - 1 elements fit in 2^27 blocks (512 MiB). *)
Definition cfg32 : cfg := std_cfg 32 32 false false (2 ^ 28).
Definition f2 : Fin 2 := fv 2 0 eq_refl.
Definition full_vec (blocks : list N) : ev := mkEv (mkRvec blocks (2 ^ 27)) (2 ^ 32 - 1).
Lemma cfg32_ok : cfg_ok cfg32. Proof. apply std_cfg_ok; [cbn; auto|left; reflexivity|discriminate]. Qed.
Lemma fin2_admits : admits cfg32 (fin 2). Proof. split; [reflexivity|vm_compute; discriminate]. Qed.
Lemma cfg32_isize : alloc_isize cfg32. Proof. vm_compute. discriminate. Qed.
Lemma s_cfg32_2 : setting cfg32 (fin 2). Proof. exact (conj cfg32_ok (conj cfg32_isize (conj fin2_admits (fin_lawful _)))). Qed.
Lemma nthN_repeat A (x : A) n i : i < N.of_nat n -> nthN (repeat x n) i = Some x.
Proof. intros H. unfold nthN. apply nth_error_repeat. lia. Qed.
Lemma l_get_repeat A (x : A) n i : i < N.of_nat n -> l_get (repeat x n) i = Some x.
Proof. intros H. unfold l_get. apply nth_error_repeat. lia. Qed.
Lemma full_vec_raw i : i < 2 ^ 32 - 1 -> get_raw_unchecked cfg32 (fin 2) i (full_vec (repeat 0 (N.to_nat (2 ^ 27)))) = Ret 0.
Proof.
  intros Hi. unfold get_raw_unchecked, block_index, load_unchecked. change (EPB cfg32 (fin 2)) with 32. change (BITS (fin 2)) with 1.
  unfold full_vec. cbn [data storage]. rewrite nthN_repeat.
  - cbn [obind]. unfold shr. change (W cfg32) with 32.
    pose proof (N.mod_lt i 32 ltac:(lia)). rewrite (proj2 (N.ltb_lt _ _)) by lia. rewrite N.shiftr_0_l. reflexivity.
  - rewrite N2Nat.id. apply N.div_lt_upper_bound; [lia|]. change (32 * 2 ^ 27) with (2 ^ 32). lia.
Qed.
Lemma full_vec_holds : holds cfg32 (fin 2) (full_vec (repeat 0 (N.to_nat (2 ^ 27)))) (repeat f2 (N.to_nat (2 ^ 32 - 1))).
Proof.
  split.
  - split; [|split; [|split; [|split]]].
    + unfold full_vec. cbn [data storage]. intros b Hb. apply repeat_spec in Hb. subst b. reflexivity.
    + unfold full_vec, len, vlen. cbn [num data storage]. rewrite lenN_repeat, N2Nat.id. vm_compute. discriminate.
    + unfold full_vec, vlen. cbn [data storage vcap]. rewrite lenN_repeat, N2Nat.id. apply N.le_refl.
    + unfold full_vec. cbn [storage vcap]. vm_compute. discriminate.
    + unfold full_vec, len. cbn [num]. vm_compute. discriminate.
  - intros i. unfold get_raw. change (len (full_vec (repeat 0 (N.to_nat (2 ^ 27))))) with (2 ^ 32 - 1).
    destruct (N.leb_spec (2 ^ 32 - 1) i) as [H|H].
    + unfold l_get. rewrite (proj2 (nth_error_None _ _)); [reflexivity|]. rewrite repeat_length. lia.
    + rewrite full_vec_raw by exact H. change (l_get (repeat f2 (N.to_nat (2 ^ 32 - 1))) i) with (nthN (repeat f2 (N.to_nat (2 ^ 32 - 1))) i).
      rewrite nthN_repeat by lia. reflexivity.
Qed.
Lemma shrink_full blocks : lenN blocks = 2 ^ 27 -> exists v', shrink_to_fit cfg32 (fin 2) (full_vec blocks) = (Ret tt, v') /\
  vlen (storage v') = 2 ^ 27 - 1 /\ num v' = 2 ^ 32 - 1 /\ get cfg32 (fin 2) (2 ^ 32 - 2) v' = UB.
Proof.
  intros Hl. unfold shrink_to_fit, bind, fix_storage. eexists. split; [reflexivity|].
  change (blocks_for_elements cfg32 (fin 2) (len (full_vec blocks))) with (2 ^ 27 - 1).
  unfold vec_shrink_to_fit, vec_truncate, full_vec. cbn [storage data num].
  assert (Hlen : lenN (firstn (N.to_nat (2 ^ 27 - 1)) blocks) = 2 ^ 27 - 1).
  { unfold lenN in *. rewrite firstn_length. lia. }
  split; [exact Hlen|]. split; [reflexivity|].
  unfold get, get_raw. unfold len. cbn [num]. change (2 ^ 32 - 1 <=? 2 ^ 32 - 2) with false. cbv iota.
  unfold get_raw_unchecked, block_index, load_unchecked. change ((2 ^ 32 - 2) / EPB cfg32 (fin 2)) with (2 ^ 27 - 1).
  cbn [storage data]. rewrite nthN_ge_None; [reflexivity|]. rewrite Hlen. apply N.le_refl.
Qed.
Lemma C41_not : ~ C41_full.
Proof.
  intros H. specialize (H _ cfg32 (fin 2) s_cfg32_2 _ _ full_vec_holds).
  destruct H as [v' [H1 [_ H2]]]. destruct (@shrink_full (repeat 0 (N.to_nat (2 ^ 27)))) as [v'' [E1 [_ [_ E2]]]].
  { rewrite lenN_repeat, N2Nat.id. reflexivity. }
  rewrite E1 in H1. injection H1 as <-. specialize (H2 (2 ^ 32 - 2)). unfold get in E2. rewrite H2 in E2.
  rewrite l_get_repeat in E2 by lia. cbn [option_map obind] in E2.
  change (to_d (fin 2) f2) with 0 in E2. change (from_discr (fin 2) 0) with (Ret f2) in E2. cbn [obind] in E2. discriminate.
Qed.
(** That state is reached by a safe program: an iterator that promises 2^32-1 items and
    panics (caught); the next shrink_to_fit then makes the last element unreadable. *)
Definition limit_prog : list (op (Fin 2)) := [ONew; OExtend 0 (mkIter [] (2 ^ 32 - 1) true)].
Lemma reach_full : exists blocks, lenN blocks = 2 ^ 27 /\
  m_run cfg32 (fin 2) [] limit_prog = ([MRes RUnit; MRes RPanic], [full_vec blocks]).
Proof.
  exists (repeat 0 (N.to_nat (2 ^ 27))). split; [rewrite lenN_repeat, N2Nat.id; reflexivity|].
  assert (Hx : extend cfg32 (fin 2) (mkIter [] (2 ^ 32 - 1) true) (ev_new cfg32) = (Panic PUser, full_vec (repeat 0 (N.to_nat (2 ^ 27))))).
  { unfold extend, bind at 1, reads at 1, bind at 1, reserve. cbn [lower items ends_in_panic].
    unfold bind at 1, reads at 1, bind at 1, lift at 1. change (len (ev_new cfg32)) with 0.
    change (0 + (2 ^ 32 - 1) <=? usize_max cfg32) with true. cbv iota. unfold bind at 1, lift at 1.
    change (uadd cfg32 ((0 + (2 ^ 32 - 1)) / EPB cfg32 (fin 2)) 1) with (@Ret N (2 ^ 27)). cbv iota beta.
    unfold on_storage, vec_resize. change (2 ^ 27 <=? vlen (storage (ev_new cfg32))) with false. cbv iota.
    change (vec_ensure cfg32 (2 ^ 27) (storage (ev_new cfg32))) with (Ret (mkRvec [] (2 ^ 27))). cbn [obind data vcap].
    change (2 ^ 27 - vlen (storage (ev_new cfg32))) with (2 ^ 27). cbn [app].
    unfold bind at 1, reads at 1. cbn [num ev_new]. change (uadd cfg32 0 (2 ^ 32 - 1)) with (@Ret N (2 ^ 32 - 1)). cbv iota beta.
    unfold bind at 1, set_len at 1. cbn [storage]. unfold bind at 1.
    destruct (N.to_nat (2 ^ 32 - 1)) as [|n] eqn:En; [lia|]. cbn [extend_known]. unfold bind at 1, lift at 1.
    change (uadd cfg32 0 0) with (@Ret N 0). reflexivity. }
  unfold limit_prog. cbn [m_run m_step m_new]. unfold m_on. cbn [app nth_error]. rewrite Hx. reflexivity.
Qed.
Lemma m_run_app T (c : cfg) (E : enumlike T) p1 p2 : forall p rs q, m_run c E p p1 = (rs, q) -> Forall completed rs ->
    fst (m_run c E p (p1 ++ p2)) = rs ++ fst (m_run c E q p2).
Proof.
  induction p1 as [|o p1 IH]; intros p rs q; cbn [m_run app].
  - intros [= <- <-] _. reflexivity.
  - destruct (m_step c E p o) as [r p'] eqn:Es. destruct r as [r| | |].
    + destruct (m_run c E p' p1) as [rs' q'] eqn:Em. intros [= <- <-] HF. inversion HF; subst.
      specialize (IH p' rs' q' Em). destruct (m_run c E p' (p1 ++ p2)) as [a b]. cbn [fst] in *. rewrite IH by assumption. reflexivity.
    + destruct (m_run c E p' p1) as [rs' q'] eqn:Em. intros [= <- <-] HF. inversion HF as [|m ms Hm]; subst. destruct Hm; discriminate.
    + intros [= <- <-] HF. inversion HF as [|m ms Hm]; subst. destruct Hm; discriminate.
    + intros [= <- <-] HF. inversion HF as [|m ms Hm]; subst. destruct Hm; discriminate.
Qed.
Definition limit_prog2 : list (op (Fin 2)) := [OShrink 0; ORead 0 (2 ^ 32 - 2)].
Lemma shrink_read_UB blocks : lenN blocks = 2 ^ 27 ->
  fst (m_run cfg32 (fin 2) [full_vec blocks] limit_prog2) = [MRes RUnit; MUB].
Proof.
  intros Hl. destruct (shrink_full Hl) as [v' [E1 [_ [_ E2]]]].
  unfold limit_prog2. cbn [m_run m_step]. unfold m_on. cbn [nth_error]. rewrite E1. cbn [of_outcome upd].
  unfold m_read. cbn [nth_error]. rewrite E2. reflexivity.
Qed.
Lemma limit_done : Forall (@completed (Fin 2)) [MRes RUnit; MRes RPanic].
Proof. constructor; [exists RUnit; reflexivity|]. constructor; [exists RPanic; reflexivity|]. constructor. Qed.
Lemma limit_app blocks (Hr : m_run cfg32 (fin 2) [] limit_prog = ([MRes RUnit; MRes RPanic], [full_vec blocks])) :
  fst (m_run cfg32 (fin 2) [] (limit_prog ++ limit_prog2)) =
  [MRes RUnit; MRes RPanic] ++ fst (m_run cfg32 (fin 2) [full_vec blocks] limit_prog2).
Proof. exact (m_run_app limit_prog2 Hr limit_done). Qed.
Lemma app_step A (l l1 l2 l3 : list A) : l = l1 ++ l2 -> l2 = l3 -> l = l1 ++ l3.
Proof. intros -> ->. reflexivity. Qed.
Lemma limit_at blocks : lenN blocks = 2 ^ 27 -> m_run cfg32 (fin 2) [] limit_prog = ([MRes RUnit; MRes RPanic], [full_vec blocks]) ->
  fst (m_run cfg32 (fin 2) [] (limit_prog ++ limit_prog2)) = [MRes RUnit; MRes RPanic] ++ [MRes RUnit; MUB].
Proof. intros Hl Hr. exact (app_step (limit_app Hr) (shrink_read_UB Hl)). Qed.
Lemma UB_near_limit :
  fst (m_run cfg32 (fin 2) [] (limit_prog ++ limit_prog2)) = [MRes RUnit; MRes RPanic] ++ [MRes RUnit; MUB].
Proof. destruct reach_full as [blocks [Hl Hr]]. exact (limit_at Hl Hr). Qed.
