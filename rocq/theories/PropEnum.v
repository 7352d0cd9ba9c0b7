(** PropEnum.v -- C30 to C35: the EnumLike implementations, values(), PackedU8/PackedU16.
    A closed type is a [ty], its values the [v : val] with [has_ty t v = true];
    [num_variants_of c t = Some n]: the program using T::NUM_VARIANTS compiles, and it is n. *)
From Verif Require Import DeriveFacts ProgFacts.
Open Scope N_scope.

(** Types used as examples:
    (bool, Option<bool>, [Result<(), bool>; 2]);
    enum X { A(bool, Option<bool>), B, C { u: User }, D } where User has 3 numbers, 1 unused;
    struct S { x: bool, y: Option<bool>, z: X2 }. *)
Definition t_tuple : ty := TTuple [TBool; TOption TBool; TArray 2 (TResult TUnit TBool)].
Definition t_enum : ty := TEnum [Some [TBool; TOption TBool]; None; Some [TUser 3 [1]]; None].
Definition t_struct : ty := TStruct [TBool; TOption TBool; t_enum].
Lemma bits c : cfg_ok c -> 2 <= usize_bits c.
Proof. intros H. destruct (ok_usize H) as [E|E]; rewrite E; discriminate. Qed.

(** ** C30: the contract, for every type *)
Theorem C30_round_trip : forall (c : cfg) t n, cfg_ok c -> num_variants_of c t = Some n ->
  forall v, has_ty t v = true -> exists d, to_discr_of c t v = Ret d /\ d < n /\ from_discr_of c t d = Ret v.
Proof.
  intros c t n Hc Hn v Hv. destruct (number_of (bits _ Hc) Hn Hv) as [d [_ [H1 [H2 H3]]]]. exact (ex_intro _ d (conj H1 (conj H2 H3))).
Qed.
(** Every number below NUM_VARIANTS is used, once (when all numbers of the users' own types are). *)
Theorem C30_onto : forall (c : cfg) t n, cfg_ok c -> num_variants_of c t = Some n -> no_holes t = true ->
  forall d, d < n -> exists v, (has_ty t v = true /\ to_discr_of c t v = Ret d) /\
    forall w, has_ty t w = true -> to_discr_of c t w = Ret d -> w = v.
Proof.
  intros c t n Hc Hn Hh d Hd. destruct (value_of (bits _ Hc) Hn Hh Hd) as [v [Hv E]]. exists v. split; [split; assumption|].
  intros w Hw Ew. destruct (number_of (bits _ Hc) Hn Hv) as [d1 [_ [E1 [_ F1]]]]. destruct (number_of (bits _ Hc) Hn Hw) as [d2 [_ [E2 [_ F2]]]]. congruence.
Qed.
(** NUM_VARIANTS is the number of values; it compiles whenever that fits in usize, for
    tuples and arrays of up to 32 components, none of them empty. *)
Theorem C30_num_variants : forall (c : cfg) t, cfg_ok c ->
  (forall n, num_variants_of c t = Some n -> n = count t /\ n <= usize_max c) /\
  (supported t = true -> count t <= usize_max c -> num_variants_of c t = Some (count t)).
Proof. intros c t Hc. split; [intros n; exact (@nv_count c (bits _ Hc) t n)|exact (@supported_compiles c (bits _ Hc) t)]. Qed.
(** The order: tuples and arrays count in mixed radix, the first component fastest; None is
    last, Err values follow the Ok values. *)
Theorem C30_tuple_order : forall (c : cfg) ts n xs ds, cfg_ok c -> num_variants_of c (TTuple ts) = Some n -> numbered c ts xs ds ->
  to_discr_of c (TTuple ts) (VSeq xs) = Ret (radix (map count ts) ds).
Proof. intros c ts n xs ds Hc Hn Hd. exact (tuple_number (bits _ Hc) Hn Hd). Qed.
Theorem C30_array_order : forall (c : cfg) k t n xs ds, cfg_ok c -> num_variants_of c (TArray k t) = Some n -> numbered c (repeat t k) xs ds ->
  to_discr_of c (TArray k t) (VSeq xs) = Ret (radix (map count (repeat t k)) ds).
Proof. intros c k t n xs ds Hc Hn Hd. exact (array_number (bits _ Hc) Hn Hd). Qed.
Theorem C30_position : forall (c : cfg) t n, cfg_ok c -> num_variants_of c t = Some n ->
  forall v, has_ty t v = true -> exists i, nth_error (enumerate t) i = Some v /\ to_discr_of c t v = Ret (N.of_nat i).
Proof.
  intros c t n Hc Hn v Hv. destruct (number_of (bits _ Hc) Hn Hv) as [d [H0 [H1 _]]]. exists (N.to_nat d).
  rewrite N2Nat.id. exact (conj H0 H1).
Qed.
Example C30_example : num_variants_of u32_debug t_tuple = Some 54 /\ num_variants_of u32_debug t_enum = Some 11 /\
  supported t_tuple = true /\ no_holes t_tuple = true /\ supported t_struct = true /\ num_variants_of u32_debug t_struct = Some 66 /\
  has_ty t_tuple (VSeq [VBool true; VNone; VSeq [VOk VUnit; VErr (VBool true)]]) = true /\
  to_discr_of u32_debug t_tuple (VSeq [VBool true; VNone; VSeq [VOk VUnit; VErr (VBool true)]]) = Ret 41 /\
  numbered u32_debug [TBool; TOption TBool; TArray 2 (TResult TUnit TBool)] [VBool true; VNone; VSeq [VOk VUnit; VErr (VBool true)]] [1; 2; 6] /\
  numbered u32_debug (repeat (TResult TUnit TBool) 2) [VOk VUnit; VErr (VBool true)] [0; 2] /\
  1 + 2 * (2 + 3 * 6) = 41.
Proof. vm_compute. repeat split. Qed.

(** Every such type is a lawful element type, so the theorems about EnumVec (PropVec.v ..)
    and EnumSet (PropSet.v) apply to it. *)
Theorem C30_element_type : forall (c : cfg) t n, cfg_ok c -> alloc_isize c -> num_variants_of c t = Some n ->
  compiles c (el c t) = true -> n <= 2 ^ 32 ->
  setting c (el c t) /\ nv (el c t) = n /\ (no_holes t = true -> complete (el c t)) /\
  (forall x : typed t, to_discr_of c t (proj1_sig x) = Ret (to_d (el c t) x)) /\
  (forall x : typed t, from_discr_of c t (to_d (el c t) x) = Ret (proj1_sig x)).
Proof.
  intros c t n Hc Hr Hn Hcomp Hle. split; [|split; [exact (el_nv (bits _ Hc) Hn)|split; [|split]]].
  - split; [exact Hc|]. split; [exact Hr|]. split; [|exact (el_lawful (bits _ Hc) Hn)]. split; [exact Hcomp|]. rewrite (el_nv (bits _ Hc) Hn). exact Hle.
  - exact (el_complete (bits _ Hc) Hn).
  - intros x. exact (el_to (bits _ Hc) x Hn).
  - intros x. exact (el_from (bits _ Hc) x Hn).
Qed.
Example C30_element_example : num_variants_of u32_debug t_enum = Some 11 /\ compiles u32_debug (el u32_debug t_enum) = true /\
  cfg_ok u32_debug /\ alloc_isize u32_debug.
Proof. split; [reflexivity|]. split; [reflexivity|]. split; [exact (proj1 u32_debug_ok)|vm_compute; discriminate]. Qed.

(** ** C31: derived for enums *)
Theorem C31_lawful : forall (c : cfg) vs n, cfg_ok c -> num_variants_of c (TEnum vs) = Some n ->
  (forall v, has_ty (TEnum vs) v = true -> exists d, to_discr_of c (TEnum vs) v = Ret d /\ d < n /\ from_discr_of c (TEnum vs) d = Ret v) /\
  n = sum (map variant_count vs).
Proof.
  intros c vs n Hc Hn. split; [exact (C30_round_trip c (TEnum vs) n Hc Hn)|]. exact (proj1 (nv_count (bits _ Hc) Hn)).
Qed.
(** C-like enums are numbered in declaration order (VVariant k: the k-th declared variant) *)
Theorem C31_c_like : forall (c : cfg) vs n, cfg_ok c -> num_variants_of c (TEnum vs) = Some n -> forallb is_unit vs = true ->
  forall k, (k < length vs)%nat -> to_discr_of c (TEnum vs) (VVariant k []) = Ret (N.of_nat k).
Proof. intros c vs n Hc Hn Hall k Hk. exact (c_like_number (bits _ Hc) Hn Hall Hk). Qed.
(** data-less variants come first, in declaration order *)
Theorem C31_units_first : forall (c : cfg) vs n, cfg_ok c -> num_variants_of c (TEnum vs) = Some n ->
  forall k, nth_error vs k = Some None ->
  to_discr_of c (TEnum vs) (VVariant k []) = Ret (lenN (filter is_unit (firstn k vs))).
Proof. intros c vs n Hc Hn k Hk. exact (enum_unit_number (bits _ Hc) Hn Hk). Qed.
(** then the others, in declaration order, each in mixed radix of its fields *)
Theorem C31_data_numbers : forall (c : cfg) vs n, cfg_ok c -> num_variants_of c (TEnum vs) = Some n ->
  forall k ts xs ds, nth_error vs k = Some (Some ts) -> numbered c ts xs ds ->
  to_discr_of c (TEnum vs) (VVariant k xs) =
  Ret (lenN (filter is_unit vs) + sum (map variant_count (filter (fun v => negb (is_unit v)) (firstn k vs))) + radix (map count ts) ds).
Proof. intros c vs n Hc Hn k ts xs ds Hk Hd. exact (enum_data_number (bits _ Hc) Hn Hk Hd). Qed.
Example C31_example : num_variants_of u32_debug t_enum = Some 11 /\
  numbered u32_debug [TUser 3 [1]] [VUser 2] [2] /\
  to_discr_of u32_debug t_enum (VVariant 2 [VUser 2]) = Ret (2 + 6 + 2) /\
  to_discr_of u32_debug t_enum (VVariant 3 []) = Ret 1 /\
  to_discr_of u32_debug t_enum (VVariant 0 [VBool true; VNone]) = Ret (2 + 0 + (1 + 2 * 2)) /\
  num_variants_of u32_debug (TEnum [None; None; None]) = Some 3.
Proof. vm_compute. repeat split. Qed.

(** ** C32: derived for structs *)
Theorem C32_lawful : forall (c : cfg) ts n, cfg_ok c -> num_variants_of c (TStruct ts) = Some n ->
  (forall v, has_ty (TStruct ts) v = true -> exists d, to_discr_of c (TStruct ts) v = Ret d /\ d < n /\ from_discr_of c (TStruct ts) d = Ret v) /\
  n = product_of (map count ts).
Proof.
  intros c ts n Hc Hn. split; [exact (C30_round_trip c (TStruct ts) n Hc Hn)|]. exact (proj1 (nv_count (bits _ Hc) Hn)).
Qed.
Theorem C32_mixed_radix : forall (c : cfg) ts n, cfg_ok c -> num_variants_of c (TStruct ts) = Some n ->
  forall xs ds, numbered c ts xs ds -> to_discr_of c (TStruct ts) (VSeq xs) = Ret (radix (map count ts) ds).
Proof. intros c ts n Hc Hn xs ds Hd. exact (struct_number (bits _ Hc) Hn Hd). Qed.
Example C32_example : num_variants_of u32_debug t_struct = Some 66 /\
  numbered u32_debug [TBool; TOption TBool; t_enum] [VBool true; VSome (VBool false); VVariant 2 [VUser 2]] [1; 0; 10] /\
  to_discr_of u32_debug t_struct (VSeq [VBool true; VSome (VBool false); VVariant 2 [VUser 2]]) = Ret (1 + 2 * (0 + 3 * 10)) /\
  num_variants_of u32_debug (TStruct []) = Some 1.
Proof. vm_compute. repeat split. Qed.

(** ** C33: values() *)
Definition not_nth (k : vcall) : Prop := match k with VNth _ => False | _ => True end.
Theorem C33_values : forall T (c : cfg) (E : enumlike T), lawful E -> complete E -> nv E <= usize_max c ->
  exists l, lists_all E l /\ lenN l = nv E /\
  forall ks, Forall not_nth ks -> fst (v_run c E ks (values_of E)) = Ret (l_calls ks l).
Proof.
  intros T c E H1 H2 H3. destruct (values_ok H1 H3 H2) as [l [L1 [L2 [L3 _]]]]. exists l. split; [exact L1|]. split; [exact L2|].
  intros ks Hk. apply L3. clear - Hk. generalize l as m. induction Hk as [|k ks Hk H IH]; intros m; [exact I|]. split; [|apply IH]. destruct k; cbn in *; auto. contradiction.
Qed.
(** When a number below NUM_VARIANTS is not used, the iterator calls from_discr on it all the same. *)
Theorem C33_unused_number : forall T (c : cfg) (E : enumlike T), lawful E -> nv E <= usize_max c ->
  forall d, d < nv E -> from_d E d = None -> (forall e, e < d -> exists x, to_d E x = e) ->
  fst (v_run c E (repeat VNext (N.to_nat d + 1)) (values_of E)) = Panic PDiscr.
Proof. intros T c E H1 H2 d H3 H4 H5. exact (values_hole H1 H2 H3 H4 H5). Qed.
Example C33_example : lawful (fin 5) /\ complete (fin 5) /\ nv (fin 5) <= usize_max u32_debug /\
  fst (v_run u32_debug (fin 5) [VNext; VCount; VLast; VNext; VSizeHint; VNext; VNext; VNext; VNext; VLast; VCount] (values_of (fin 5)))
  = Ret [VItem (Some (f5 0)); VNum 4; VItem (Some (f5 4)); VItem (Some (f5 1)); VNum 3; VItem (Some (f5 2)); VItem (Some (f5 3));
         VItem (Some (f5 4)); VItem None; VItem None; VNum 0].
Proof.
  split; [apply fin_lawful|]. split; [|split; [discriminate|vm_compute; reflexivity]].
  intros d Hd. exists (f5 d). assert (H : d = 0 \/ d = 1 \/ d = 2 \/ d = 3 \/ d = 4) by (cbn in Hd; lia).
  destruct H as [->|[->|[->|[->| ->]]]]; reflexivity.
Qed.

(** ** C34: nth *)
(** missing: calls nth(n) at position i with i + n > usize::MAX *)
Theorem C34_nth_partial : forall T (c : cfg) (E : enumlike T), lawful E -> complete E -> nv E <= usize_max c ->
  exists l, lists_all E l /\ lenN l = nv E /\
  forall ks, no_wrap (usize_max c) (nv E) ks l -> fst (v_run c E ks (values_of E)) = Ret (l_calls ks l).
Proof.
  intros T c E H1 H2 H3. destruct (values_ok H1 H3 H2) as [l [L1 [L2 [L3 _]]]]. exact (ex_intro _ l (conj L1 (conj L2 L3))).
Qed.
(** In those calls debug builds panic, and release builds go back to an earlier value. *)
Theorem C34_nth_overflows : forall T (c : cfg) (E : enumlike T), lawful E -> complete E -> nv E <= usize_max c ->
  exists l, lists_all E l /\
  forall i n, i <= nv E -> n <= usize_max c -> usize_max c < i + n ->
  fst (v_run c E (repeat VNext (N.to_nat i) ++ [VNth n]) (values_of E)) =
  if ovf c then Panic POverflow
  else Ret (map (fun x => VItem (Some x)) (firstn (N.to_nat i) l) ++ [VItem (nth_error l (N.to_nat (i + n - 2 ^ usize_bits c)))]).
Proof.
  intros T c E H1 H2 H3. destruct (values_ok H1 H3 H2) as [l [L1 [_ [_ L4]]]]. exact (ex_intro _ l (conj L1 L4)).
Qed.
Definition C34_full : Prop := forall T (c : cfg) (E : enumlike T), lawful E -> complete E -> nv E <= usize_max c ->
  exists l, lists_all E l /\ lenN l = nv E /\
  forall ks, (forall n, In (VNth n) ks -> n <= usize_max c) -> fst (v_run c E ks (values_of E)) = Ret (l_calls ks l).
Theorem C34_nth_refuted : ~ C34_full.
Proof.
  intros H. destruct (H _ u32_debug (fin 5) (fin_lawful 5) (proj1 (proj2 C33_example))) as [l [_ [_ Hr]]]; [discriminate|].
  specialize (Hr [VNext; VNth (2 ^ 64 - 1)]). assert (Hn : forall n, In (VNth n) [VNext; VNth (2 ^ 64 - 1)] -> n <= usize_max u32_debug).
  { intros n [E|[E|[]]]; [discriminate|]. injection E as <-. vm_compute. discriminate. }
  specialize (Hr Hn).
  assert (E : fst (v_run u32_debug (fin 5) [VNext; VNth (2 ^ 64 - 1)] (values_of (fin 5))) = Panic POverflow) by (vm_compute; reflexivity).
  rewrite E in Hr. discriminate Hr.
Qed.
(** the third call goes back from position 2 to value 1 *)
Example C34_example : fst (v_run u32_release (fin 5) [VNext; VNext; VNth (2 ^ 64 - 1)] (values_of (fin 5))) =
  Ret [VItem (Some (f5 0)); VItem (Some (f5 1)); VItem (Some (f5 1))] /\
  no_wrap (usize_max u32_release) 5 [VNext; VNth 1; VNth 7; VNext] (map f5 [0; 1; 2; 3; 4]).
Proof. split; [vm_compute; reflexivity|]. vm_compute. repeat split; discriminate. Qed.

(** ** C35: PackedU8 (w = 8), PackedU16 (w = 16) *)
Theorem C35_round_trip : forall T (E : enumlike T), lawful E -> forall w x, nv E <= 2 ^ w ->
  exists p, packed_new E w x = Some (Ret p) /\ p < 2 ^ w /\ packed_get E p = Ret x.
Proof. intros T E H w x Hw. exact (packed_ok H x Hw). Qed.
Theorem C35_rejected : forall T (E : enumlike T) w x, packed_new E w x = None <-> 2 ^ w < nv E.
Proof. intros T E w x. exact (packed_rejected E w x). Qed.
Theorem C35_equality : forall T (E : enumlike T), lawful E -> forall w x y p q,
  packed_new E w x = Some (Ret p) -> packed_new E w y = Some (Ret q) ->
  (packed_eq p q = true <-> x = y) /\ packed_cmp p q = (to_d E x ?= to_d E y).
Proof. intros T E H w x y p q Hp Hq. exact (packed_order H Hp Hq). Qed.
Example C35_example : packed_new (fin 256) 8 (f256 255) = Some (Ret 255) /\ packed_get (fin 256) 255 = Ret (f256 255) /\
  nv (fin 257) > 2 ^ 8 /\ nv (fin 257) <= 2 ^ 16.
Proof. vm_compute. repeat split; discriminate. Qed.
