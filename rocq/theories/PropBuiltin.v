(** PropBuiltin.v -- C47: the implementations written by the tuple and array macros. *)
From Verif Require Import BuiltinFacts DeriveFacts ProgFacts.
Open Scope N_scope.

(** ** C47 *)
(** NUM_VARIANTS: there is an implementation for tuples and arrays of up to 32 components,
    whatever their types (if the numbers fit in usize), and for no longer ones. *)
Theorem C47_num_variants : forall (c : cfg) impl_drop t, cfg_ok c ->
  (forall n, k_nv (macro_code c impl_drop t) = Some n -> n = count t /\ n <= usize_max c) /\
  (supported t = true -> count t <= usize_max c -> k_nv (macro_code c impl_drop t) = Some (count t)).
Proof.
  intros c dr t Hc. rewrite macro_nv. assert (Hb : 2 <= usize_bits c) by (destruct (ok_usize Hc) as [E|E]; rewrite E; discriminate).
  split; [intros n; exact (@nv_count c Hb t n)|exact (@supported_compiles c Hb t)].
Qed.
Theorem C47_too_long : forall (c : cfg) impl_drop t n ts,
  ((32 < n)%nat -> k_nv (macro_code c impl_drop (TArray n t)) = None) /\
  ((32 < length ts)%nat -> k_nv (macro_code c impl_drop (TTuple ts)) = None).
Proof.
  intros c dr t n ts. rewrite !macro_nv. cbn. rewrite repeat_length, map_length. split; intros H; rewrite (proj2 (Nat.leb_gt _ _)) by exact H; reflexivity.
Qed.
(** The conversions of every type without arrays of elements that need to be dropped: no
    element is used after it was moved out, a value's number is its position in the list
    of the type's values, and from_discr inverts to_discr.
    Missing: arrays of elements that need to be dropped. *)
Theorem C47_conversions_partial : forall (c : cfg) impl_drop t n, cfg_ok c ->
  k_nv (macro_code c impl_drop t) = Some n -> moves_only impl_drop t = true ->
  forall v, has_ty t v = true -> exists i, nth_error (enumerate t) i = Some v /\
    k_to (macro_code c impl_drop t) v = Ret (N.of_nat i) /\ N.of_nat i < n /\
    k_from (macro_code c impl_drop t) (N.of_nat i) = Ret v.
Proof.
  intros c dr t n Hc Hn Hm v Hv. assert (Hb : 2 <= usize_bits c) by (destruct (ok_usize Hc) as [E|E]; rewrite E; discriminate).
  rewrite macro_nv in Hn. destruct (number_of Hb Hn Hv) as [d [H0 [H1 [H2 H3]]]].
  destruct (macro_like Hb (ex_intro _ n Hn) Hm) as [_ [L2 L3]]. exists (N.to_nat d). rewrite N2Nat.id.
  split; [exact H0|]. split; [rewrite (L2 _ Hv); exact H1|]. split; [exact H2|]. exact (L3 _ _ Hv H3).
Qed.
(** in particular for the types an EnumVec can hold: they are Copy, so nothing needs to be dropped *)
Theorem C47_copy_types : forall (c : cfg) impl_drop t n, cfg_ok c ->
  k_nv (macro_code c impl_drop t) = Some n -> needs_drop impl_drop t = false ->
  forall v, has_ty t v = true -> exists i, nth_error (enumerate t) i = Some v /\
    k_to (macro_code c impl_drop t) v = Ret (N.of_nat i) /\ N.of_nat i < n /\
    k_from (macro_code c impl_drop t) (N.of_nat i) = Ret v.
Proof.
  intros c dr t n Hc Hn Hd v Hv. apply C47_conversions_partial; auto. apply copy_moves. exact Hd.
Qed.
(** Elements that need to be dropped: to_discr of an array of one or more is always
    undefined behaviour (it drops the uninitialised elements it leaves behind). *)
Theorem C47_array_drop_refuted : forall (c : cfg) impl_drop n t v, (n <= 32)%nat -> n <> O ->
  needs_drop impl_drop t = true -> has_ty (TArray n t) v = true ->
  k_to (macro_code c impl_drop (TArray n t)) v = UB.
Proof. intros c dr n t v H1 H2 H3 H4. exact (array_drop_UB c H1 H2 H3 H4). Qed.
Theorem C47_refuted : ~ (forall (c : cfg) impl_drop t n v, cfg_ok c ->
  k_nv (macro_code c impl_drop t) = Some n -> has_ty t v = true ->
  exists d, k_to (macro_code c impl_drop t) v = Ret d).
Proof.
  intros H. destruct (H u32_debug (fun _ => true) (TArray 1 (TUser 3 [])) 3 (VSeq [VUser 1]) (proj1 u32_debug_ok) eq_refl eq_refl) as [d Hd].
  vm_compute in Hd. discriminate.
Qed.
(** (bool, [Result<(), bool>; 2], ..) with 32 components; an array of a struct that implements Drop *)
Example C47_example :
  let t := TTuple (TArray 2 (TResult TUnit TBool) :: repeat TUnit 29 ++ [TBool; TOption TBool]) in
  let v := VSeq (VSeq [VErr (VBool true); VOk VUnit] :: repeat VUnit 29 ++ [VBool true; VNone]) in
  let dropped t := match t with TStruct _ => true | _ => false end in
  k_nv (macro_code u32_debug dropped t) = Some 54 /\ supported t = true /\ needs_drop dropped t = false /\ has_ty t v = true /\
  k_to (macro_code u32_debug dropped t) v = Ret (2 + 9 * (1 + 2 * 2)) /\
  moves_only dropped (TTuple [t; TArray 0 (TStruct [TBool])]) = true /\
  needs_drop dropped (TOption (TStruct [TBool])) = true /\
  has_ty (TArray 3 (TOption (TStruct [TBool]))) (VSeq [VNone; VNone; VSome (VSeq [VBool true])]) = true /\
  k_nv (macro_code u32_debug dropped (TTuple (repeat TBool 33))) = None.
Proof. vm_compute. repeat split. Qed.
