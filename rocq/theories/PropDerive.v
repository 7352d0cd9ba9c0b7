(** PropDerive.v -- C46: the code #[derive(EnumLike)] emits, read as Rust.
    [derive_enum_like d = Some g]: the macro turns the declaration d into the tokens g;
    [impl_code c (code_of c) d g]: what these tokens mean, parsed with Rust's precedence and
    run with the usize arithmetic of c, where the field types have their own implementations;
    [declared d] (DeriveSpec.v): the type declared, by the order of its variants and fields. *)
From Coq Require Import String.
From Verif Require Import MacroFacts4 DeriveFacts ProgFacts PropEnum.
From Coq Require Import List.
Close Scope string_scope.
Open Scope N_scope.

Lemma codes_fit c (Hc : cfg_ok c) t m : k_nv (code_of c t) = Some m -> m <= usize_max c.
Proof. intros H. exact (proj2 (nv_count (bits c Hc) H)). Qed.
Lemma code_of_declared c d : accepted d -> code_of_decl c (code_of c) d = code_of c (declared d).
Proof.
  destruct d as [f|vs|]; intros H; [| |contradiction]; cbn [code_of_decl declared code_of]; [reflexivity|].
  f_equal. unfold vcodes. rewrite map_map. reflexivity.
Qed.
Lemma shaped_typed d v : accepted d -> has_ty (declared d) v = true -> shaped d v.
Proof.
  destruct d as [f|vs|]; intros Ha; [| |contradiction]; cbn [declared]; destruct v; try discriminate; cbn [has_ty shaped]; intros H.
  - apply typed2_length in H. rewrite map_length in H. congruence.
  - intros w Hw. rewrite nth_error_map in H. erewrite (map_nth_error _ _ vs Hw) in H. cbn [option_map] in H. unfold field_types. destruct (types_of (snd w)) as [ts|].
    + cbn in H. apply typed2_length in H. rewrite map_length in H. congruence.
    + cbn in H. match type of H with context [match ?l with [] => _ | _ :: _ => _ end] => destruct l; [reflexivity|discriminate] end.
Qed.

(** The macro takes structs and enums, and stops at unions and at variants  V()  and  V {} . *)
Theorem C46_accepts : forall (A : Type) (d : decl A), (exists g, derive_enum_like d = Some g) <-> accepted d.
Proof.
  intros A d.
  exact (@derive_some u32_debug ltac:(discriminate) A (fun _ => mkCode None (fun _ => ill_typed) (fun _ => ill_typed)) ltac:(discriminate) d).
Qed.
(** The numbers are those of C31 and C32: names, and the way a variant is written, play no role. *)
Theorem C46_numbering : forall (c : cfg) d g, cfg_ok c -> well_named d -> derive_enum_like d = Some g ->
  k_nv (impl_code c (code_of c) d g) = num_variants_of c (declared d) /\
  forall n, num_variants_of c (declared d) = Some n ->
  (forall x, k_from (impl_code c (code_of c) d g) x = from_discr_of c (declared d) x) /\
  (forall v, has_ty (declared d) v = true -> k_to (impl_code c (code_of c) d g) v = to_discr_of c (declared d) v).
Proof.
  intros c d g Hc Hw Hg. assert (Ha : accepted d) by (apply C46_accepts; exists g; exact Hg).
  destruct (derive_ok (bits c Hc) (codes_fit c Hc) Hw Hg) as [H1 H2]. rewrite (code_of_declared c d Ha) in H1, H2.
  split; [exact H1|]. intros n Hn. destruct (H2 n Hn) as [H3 H4]. split; [exact H3|]. intros v Hv. apply H4. exact (shaped_typed d v Ha Hv).
Qed.
(** Round trip: what the contract of C30 asks of the emitted code. *)
Theorem C46_lawful : forall (c : cfg) d g n, cfg_ok c -> well_named d -> derive_enum_like d = Some g ->
  k_nv (impl_code c (code_of c) d g) = Some n ->
  n = count (declared d) /\
  (forall v, has_ty (declared d) v = true -> exists i,
    k_to (impl_code c (code_of c) d g) v = Ret i /\ i < n /\ k_from (impl_code c (code_of c) d g) i = Ret v) /\
  (no_holes (declared d) = true -> forall i, i < n -> exists v, has_ty (declared d) v = true /\ k_to (impl_code c (code_of c) d g) v = Ret i).
Proof.
  intros c d g n Hc Hw Hg Hn. destruct (C46_numbering c d g Hc Hw Hg) as [H1 H2]. rewrite Hn in H1. symmetry in H1. destruct (H2 n H1) as [H3 H4].
  split; [exact (proj1 (nv_count (bits c Hc) H1))|]. split.
  - intros v Hv. destruct (C30_round_trip c _ n Hc H1 v Hv) as [i [E1 [E2 E3]]]. exists i. rewrite (H4 v Hv), H3. auto.
  - intros Hh i Hi. destruct (C30_onto c _ n Hc H1 Hh i Hi) as [v [[Hv E] _]]. exists v. split; [exact Hv|]. rewrite (H4 v Hv). exact E.
Qed.
(** The formulas.  Structs: mixed radix, the first field fastest. *)
Lemma numbered_typed c ts : forall xs ds, numbered c ts xs ds -> typed2 (map has_ty ts) xs = true.
Proof.
  induction ts as [|t ts IH]; intros [|x xs] [|d ds] H; cbn in *; try contradiction; auto. destruct H as [H1 [_ H2]]. rewrite H1. exact (IH _ _ H2).
Qed.
Theorem C46_struct_number : forall (c : cfg) f g n, cfg_ok c -> named_ok f -> derive_enum_like (DStruct f) = Some g ->
  k_nv (impl_code c (code_of c) (DStruct f) g) = Some n ->
  forall xs ds, numbered c (field_types f) xs ds ->
  k_to (impl_code c (code_of c) (DStruct f) g) (VSeq xs) = Ret (radix (map count (field_types f)) ds).
Proof.
  intros c f g n Hc Hw Hg Hn xs ds Hd. destruct (C46_numbering c (DStruct f) g Hc Hw Hg) as [H1 H2]. rewrite Hn in H1. symmetry in H1. destruct (H2 n H1) as [_ H4].
  rewrite H4; [|exact (numbered_typed c _ _ _ Hd)]. exact (C32_mixed_radix c _ n Hc H1 xs ds Hd).
Qed.
(** Enums: the variants without fields first, then the others, both in declaration order. *)
Theorem C46_unit_number : forall (c : cfg) vs g n, cfg_ok c -> well_named (DEnum vs) -> derive_enum_like (DEnum vs) = Some g ->
  k_nv (impl_code c (code_of c) (DEnum vs) g) = Some n ->
  forall k name, nth_error vs k = Some (name, Unit) ->
  k_to (impl_code c (code_of c) (DEnum vs) g) (VVariant k []) = Ret (lenN (filter is_unit (map (fun v : variant ty => types_of (snd v)) (firstn k vs)))).
Proof.
  intros c vs g n Hc Hw Hg Hn k name Hk. destruct (C46_numbering c (DEnum vs) g Hc Hw Hg) as [H1 H2]. rewrite Hn in H1. symmetry in H1. destruct (H2 n H1) as [_ H4].
  assert (Ek : nth_error (map (fun v : variant ty => types_of (snd v)) vs) k = Some None) by exact (map_nth_error (fun v : variant ty => types_of (snd v)) k vs Hk).
  rewrite H4; [|cbn [declared has_ty]; rewrite nth_error_map, Ek; reflexivity].
  cbn [declared] in H1 |- *. rewrite (C31_units_first c _ n Hc H1 k Ek), firstn_map. reflexivity.
Qed.
Theorem C46_data_number : forall (c : cfg) vs g n, cfg_ok c -> well_named (DEnum vs) -> derive_enum_like (DEnum vs) = Some g ->
  k_nv (impl_code c (code_of c) (DEnum vs) g) = Some n ->
  forall k name f xs ds, nth_error vs k = Some (name, f) -> types_of f = Some (field_types f) -> numbered c (field_types f) xs ds ->
  k_to (impl_code c (code_of c) (DEnum vs) g) (VVariant k xs) =
  Ret (lenN (filter is_unit (map (fun v : variant ty => types_of (snd v)) vs)) +
       sum (map variant_count (filter (fun v => negb (is_unit v)) (map (fun v : variant ty => types_of (snd v)) (firstn k vs)))) +
       radix (map count (field_types f)) ds).
Proof.
  intros c vs g n Hc Hw Hg Hn k name f xs ds Hk Hf Hd. destruct (C46_numbering c (DEnum vs) g Hc Hw Hg) as [H1 H2]. rewrite Hn in H1. symmetry in H1. destruct (H2 n H1) as [_ H4].
  assert (Ek : nth_error (map (fun v : variant ty => types_of (snd v)) vs) k = Some (Some (field_types f))) by (rewrite <- Hf; exact (map_nth_error (fun v : variant ty => types_of (snd v)) k vs Hk)).
  rewrite H4.
  2:{ cbn [declared has_ty]. rewrite nth_error_map, Ek. cbn [option_map]. exact (numbered_typed c _ _ _ Hd). }
  cbn [declared] in H1 |- *. rewrite (C31_data_numbers c _ n Hc H1 k _ xs ds Ek Hd), firstn_map. reflexivity.
Qed.
(** It compiles whenever the number of values fits in usize (and the field types are supported). *)
Theorem C46_compiles : forall (c : cfg) d g, cfg_ok c -> well_named d -> derive_enum_like d = Some g ->
  supported (declared d) = true -> count (declared d) <= usize_max c -> k_nv (impl_code c (code_of c) d g) = Some (count (declared d)).
Proof.
  intros c d g Hc Hw Hg Hs Hle. rewrite (proj1 (C46_numbering c d g Hc Hw Hg)). exact (proj2 (C30_num_variants c (declared d) Hc) Hs Hle).
Qed.
(** Field types with any implementation, also one that breaks the contract: the emitted code
    calls the fields' to_discr and from_discr exactly as the combinators of EnumLike.v do. *)
Theorem C46_any_fields : forall (c : cfg) (A : Type) (impl_of : A -> code) d g, cfg_ok c ->
  (forall t m, k_nv (impl_of t) = Some m -> m <= usize_max c) -> well_named d -> derive_enum_like d = Some g ->
  k_nv (impl_code c impl_of d g) = k_nv (code_of_decl c impl_of d) /\
  forall n, k_nv (code_of_decl c impl_of d) = Some n ->
  (forall x, k_from (impl_code c impl_of d g) x = k_from (code_of_decl c impl_of d) x) /\
  (forall v, shaped d v -> k_to (impl_code c impl_of d g) v = k_to (code_of_decl c impl_of d) v).
Proof. intros c A impl_of d g Hc Hf Hw Hg. exact (derive_ok (bits c Hc) Hf Hw Hg). Qed.

(** Generic declarations: whatever types the parameters stand for ([inst] instantiates the
    type expressions of the declaration), the emitted code is that of the instance. *)
Lemma types_map A B (f : A -> B) x : types_of (map_fields f x) = option_map (map f) (types_of x).
Proof. destruct x; cbn; try reflexivity. rewrite !map_map. reflexivity. Qed.
Lemma accepted_map A B (f : A -> B) d : accepted d -> accepted (map_decl f d).
Proof.
  destruct d as [x|vs|]; cbn; auto. intros H. apply Forall_forall. intros v Hv. apply in_map_iff in Hv. destruct Hv as [w [<- Hw]].
  rewrite Forall_forall in H. specialize (H w Hw). cbn [snd]. rewrite types_map. destruct (types_of (snd w)) as [[|t ts]|]; cbn; congruence.
Qed.
Lemma code_map c A B (f : A -> B) (k : B -> code) d : code_of_decl c k (map_decl f d) = code_of_decl c (fun a => k (f a)) d.
Proof.
  destruct d as [x|vs|]; cbn [map_decl code_of_decl]; [| |reflexivity].
  - unfold field_types. rewrite types_map. destruct (types_of x); cbn; [rewrite map_map|]; reflexivity.
  - f_equal. unfold vcodes. rewrite map_map. apply map_ext. intros v. cbn [snd]. rewrite types_map.
    destruct (types_of (snd v)); cbn; [rewrite map_map|]; reflexivity.
Qed.
Lemma shaped_map A B (f : A -> B) d v : shaped (map_decl f d) v -> shaped d v.
Proof.
  destruct d as [x|vs|]; destruct v; cbn; try tauto.
  - unfold field_types. rewrite types_map. destruct (types_of x); cbn; [rewrite map_length|]; auto.
  - intros H w Hw. specialize (H (fst w, map_fields f (snd w))). rewrite (map_nth_error _ _ _ Hw) in H. specialize (H eq_refl). revert H. cbn [snd].
    unfold field_types. rewrite types_map. destruct (types_of (snd w)); cbn; [rewrite map_length|]; auto.
Qed.
Theorem C46_generic : forall (c : cfg) (A : Type) (inst : A -> ty) (d : decl A) g, cfg_ok c -> well_named d -> derive_enum_like d = Some g ->
  let k := impl_code c (fun a => code_of c (inst a)) d g in
  let t := declared (map_decl inst d) in
  k_nv k = num_variants_of c t /\
  forall n, k_nv k = Some n ->
  (forall x, k_from k x = from_discr_of c t x) /\
  (forall v, has_ty t v = true -> k_to k v = to_discr_of c t v).
Proof.
  intros c A inst d g Hc Hw Hg k t. assert (Ha : accepted d) by (apply C46_accepts; exists g; exact Hg).
  pose proof (accepted_map _ _ inst d Ha) as Ha'.
  destruct (derive_ok (bits c Hc) (impl_of := fun a => code_of c (inst a)) (fun a m => codes_fit c Hc (inst a) m) Hw Hg) as [H1 H2].
  rewrite <- (code_map c _ _ inst (code_of c) d), (code_of_declared c _ Ha') in H1, H2.
  split; [exact H1|]. intros n Hn. unfold k in Hn. rewrite H1 in Hn. destruct (H2 n Hn) as [H3 H4]. split; [exact H3|].
  intros v Hv. apply H4. apply (shaped_map _ _ inst). exact (shaped_typed _ v Ha' Hv).
Qed.
(** The impl has the parameters of the declaration, in order, and its where clause; every type
    parameter gets the bound EnumLike in addition to its own, nothing else changes (defaults
    have no place in an impl). *)
Theorem C46_bounds : forall name g,
  let h := impl_enum_like name g in
  h_name h = name /\ h_ty_generics h = map gparam_name (g_params g) /\ h_where h = g_where g /\
  length (h_impl_generics h) = length (g_params g) /\
  forall i p, nth_error (g_params g) i = Some p -> exists q, nth_error (h_impl_generics h) i = Some q /\
    match p with
    | PLifetime _ _ => q = p
    | PType s bounds _ => exists bounds', q = PType s bounds' None /\ forall b, In b bounds' <-> In b bounds \/ b = "::enum_like::EnumLike"%string
    | PConst s t _ => q = PConst s t None
    end.
Proof.
  intros name gs h. split; [reflexivity|]. split; [|split; [reflexivity|split]].
  - cbn. rewrite map_map. apply map_ext. intros p; destruct p; reflexivity.
  - cbn. rewrite !map_length. reflexivity.
  - intros i p Hp. eexists. split; [cbn; rewrite map_map; exact (map_nth_error _ _ _ Hp)|]. destruct p; try reflexivity. eexists. split; [reflexivity|].
    intros b. rewrite in_app_iff. cbn. intuition.
Qed.
(** struct P<T, U> { a: T, b: Option<U> } with T = bool, U = X *)
Definition d_generic : decl (nat + nat) := DStruct (Named [("a", inl 0%nat); ("b", inr 1%nat)])%string.
Definition d_inst (e : nat -> ty) (a : nat + nat) : ty := match a with inl i => e i | inr i => TOption (e i) end.
Example C46_generic_example : exists g, derive_enum_like d_generic = Some g /\ well_named d_generic /\
  let e i := match i with O => TBool | _ => t_enum end in
  k_nv (impl_code u32_debug (fun a => code_of u32_debug (d_inst e a)) d_generic g) = Some 24 /\
  k_to (impl_code u32_debug (fun a => code_of u32_debug (d_inst e a)) d_generic g) (VSeq [VBool true; VSome (VVariant 2 [VUser 2])]) = Ret 21.
Proof.
  eexists. split; [reflexivity|]. split; [cbn; repeat constructor; cbn; intuition discriminate|]. vm_compute. split; reflexivity.
Qed.

(** enum X { A(bool, Option<bool>), B, C { u: User }, D } and  struct S { z: X, y: bool } *)
Open Scope string_scope.
Definition d_enum : decl ty := DEnum [("A", Unnamed [TBool; TOption TBool]); ("B", Unit); ("C", Named [("u", TUser 3 [1])]); ("D", Unit)].
Definition d_struct : decl ty := DStruct (Named [("z", t_enum); ("y", TBool)]).
Close Scope string_scope.
Example C46_example : cfg_ok u32_debug /\ well_named d_enum /\ well_named d_struct /\ accepted d_enum /\ declared d_enum = t_enum /\
  (exists g, derive_enum_like d_enum = Some g /\
    k_nv (impl_code u32_debug (code_of u32_debug) d_enum g) = Some 11 /\
    k_to (impl_code u32_debug (code_of u32_debug) d_enum g) (VVariant 2 [VUser 2]) = Ret 10 /\
    k_from (impl_code u32_debug (code_of u32_debug) d_enum g) 7 = Ret (VVariant 0 [VBool true; VNone]) /\
    k_from (impl_code u32_debug (code_of u32_debug) d_enum g) 11 = Panic PDiscr) /\
  (exists g, derive_enum_like d_struct = Some g /\
    k_nv (impl_code u32_debug (code_of u32_debug) d_struct g) = Some 22 /\
    k_to (impl_code u32_debug (code_of u32_debug) d_struct g) (VSeq [VVariant 2 [VUser 2]; VBool true]) = Ret 21) /\
  derive_enum_like (DEnum [("A"%string, @Unnamed ty [])]) = None.
Proof.
  split; [exact (proj1 u32_debug_ok)|]. split; [|split; [|split]].
  - split; [|repeat constructor; cbn; tauto]. repeat constructor; cbn; intuition discriminate.
  - cbn. repeat constructor; cbn; intuition discriminate.
  - repeat constructor; discriminate.
  - split; [reflexivity|]. split; [|split; [|reflexivity]]; eexists; (split; [reflexivity|]); vm_compute; repeat split.
Qed.
