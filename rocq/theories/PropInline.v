(** PropInline.v -- C51: a SmallEnumVec uses the heap only when it outgrows its inline buffer.
    [inline v], [inline_max E], [all_inline]: Inline.v. *)
From Verif Require Import MemFacts3 InlineFacts InlineExact PropProg.
Open Scope N_scope.

(** the inline buffer holds 128 elements of 1 bit, 64 of 2 bits, 32 of 4 bits, ... *)
Theorem C51_inline_max : forall T (E : enumlike T), BITS E = 1 \/ BITS E = 2 \/ BITS E = 4 \/ BITS E = 8 \/ BITS E = 16 \/ BITS E = 32 ->
  inline_max E * BITS E = 128.
Proof. intros T E H. unfold inline_max. destruct H as [->|[->|[->|[->|[->| ->]]]]]; reflexivity. Qed.

(** ** inline programs *)
(** Any program of safe calls, with any EnumLike implementation, lawful or not: as long as the
    calls ask for no more than the inline buffer provides ([all_inline]) every vector lives in
    its inline buffer after every call -- whatever the allocator and the growth policy would do,
    even if there is no heap at all -- and no call panics or aborts for lack of memory.
    Missing from the README's claim: vectors filled exactly to [inline_max] elements by
    collecting, extending, resizing or reserving (see C51_refuted). *)
Theorem C51_inline_partial : forall T (c : cfg) (E : enumlike T), cfg_ok c -> admits c E -> keeps_inline c ->
  forall prog, all_inline c E [] prog = true ->
  Forall inline (snd (m_run c E [] prog)) /\ ~ In MCap (fst (m_run c E [] prog)) /\ ~ In MAbort (fst (m_run c E [] prog)).
Proof.
  intros T c E Hc Ha Hk prog H. apply (all_demands Hc Ha Hk) in H.
  destruct (run_stays Hc (inline_roomy Hc Ha Hk) Ha (inline_serves Hc Hk) (Forall_nil _) H) as [H1 H2]. rewrite Forall_forall in H1. split.
  - eapply Forall_impl; [|exact H2]. intros v [G _]. exact G.
  - split; intros G; exact (H1 _ G).
Qed.
(** ... and for the programs of C22 every call returns what it returns on Vec, again without any
    assumption on the allocator. *)
Theorem C51_program_partial : forall T (c : cfg) (E : enumlike T), setting c E -> keeps_inline c ->
  forall prog, ok_program c E prog = true -> all_inline_vec E [] prog = true ->
  fst (m_run c E [] prog) = map (@MRes T) (fst (s_run (to_d E) [] prog)).
Proof.
  intros T c E Hs Hk prog Hok H. pose proof (proj1 (proj2 (proj2 Hs))) as Ha. apply (all_demands_vec (s_ok Hs) Ha Hk) in H.
  exact (run_fed Hs (inline_serves (s_ok Hs) Hk) (inline_roomy (s_ok Hs) Ha Hk) (PR_nil (s_ok Hs) (s_comp Hs) (s_alloc Hs) (s_d Hs) (s_fd Hs)) (Forall_nil _) Hok H).
Qed.
(** Elements pushed one by one stay inline up to and including [inline_max] elements. *)
Theorem C51_pushes : forall T (c : cfg) (E : enumlike T), setting c E -> keeps_inline c ->
  forall xs, lenN xs <= inline_max E ->
  exists v, m_run c E [ev_new c] (map (OPush 0) xs) = (repeat (MRes RUnit) (length xs), [v]) /\ inline v /\ holds c E v xs.
Proof. intros T c E Hs Hk xs H. exact (pushes_inline Hs Hk xs H). Qed.

(** ** the README's claim fails for exactly full vectors *)
(** reserve, extend (also by nothing), from_iter, from_slice and from_elem that make room for, or
    fill, [inline_max] elements move the vector to the heap although it would fit. *)
Theorem C51_refuted : forall T (c : cfg) (E : enumlike T), cfg_ok c -> admits c E -> keeps_inline c ->
  (forall v v' k, valid c E v -> len v + k = inline_max E -> reserve c E k v = (Ret tt, v') -> ~ inline v') /\
  (forall v v' it, valid c E v -> len v + lower it = inline_max E -> extend c E it v = (Ret tt, v') -> ~ inline v') /\
  (forall v it, lower it = inline_max E -> from_iter c E it = Ret v -> ~ inline v) /\
  (forall v l, lenN l = inline_max E -> from_slice c E l = Ret v -> ~ inline v) /\
  (forall v x, from_elem c E x (inline_max E) = Ret v -> ~ inline v).
Proof.
  intros T c E Hc Ha Hk. rewrite (inline_max_P E Hc Hk). pose proof (inline_roomy Hc Ha Hk) as Hr. pose proof (proj1 (P_le_W Hc Ha)) as HP. unfold inline.
  assert (X : forall v v' it, vlen (storage v) <= vcap (storage v) -> len v + lower it = 4 * EPB c E -> extend c E it v = (Ret tt, v') -> ~ inline v').
  { intros v v' it H1 H2 H3 H4. unfold inline in H4. apply (extend_big Hc Ha) in H3; [lia|exact H1|lia|lia]. }
  assert (Y : forall v it, lower it = 4 * EPB c E -> from_iter c E it = Ret v -> ~ inline v).
  { intros v it H1 H2. apply build_ret in H2. destruct H2 as [[] H2]. exact (X _ _ _ (new_cap c) H1 H2). }
  split; [|split; [|split; [|split]]].
  - intros v v' k (_ & _ & H1 & _) H2 H3 H4. apply (reserve_big Hc Ha) in H3; [lia|exact H1|lia|lia].
  - intros v v' it (_ & _ & H1 & _). apply X. exact H1.
  - exact Y.
  - intros v l H. apply Y. exact H.
  - intros v x H. apply build_ret in H. destruct H as [[] H]. unfold extend_with_value in H. rewrite N.leb_refl in H.
    exact (X _ _ (exact_iter (repeat x (N.to_nat (4 * EPB c E)))) (new_cap c) (repeat_len x _) H).
Qed.

(** ** exactly when *)
(** A program of C22 (whose calls name existing vectors and whose collected iterators do not
    panic) runs without ever needing the heap -- every vector is inline after every call, and no
    call panics or aborts for lack of memory, whatever the allocator -- if and only if each call
    passes the test [fits_exact] on the lengths of the Vecs the same program would make; and then
    it returns what it returns on Vec. *)
Theorem C51_exact : forall T (c : cfg) (E : enumlike T), setting c E -> keeps_inline c ->
  forall prog, ok_program c E prog = true -> ~ In RNoReg (fst (s_run (to_d E) [] prog)) ->
  (forall it, In (OFromIter it) prog -> ends_in_panic it = false) ->
  (all_exact E [] prog = true <->
   (forall k, Forall inline (snd (m_run c E [] (firstn k prog)))) /\ ~ In MCap (fst (m_run c E [] prog)) /\ ~ In MAbort (fst (m_run c E [] prog))) /\
  (all_exact E [] prog = true -> fst (m_run c E [] prog) = map (@MRes T) (fst (s_run (to_d E) [] prog))).
Proof.
  intros T c E Hs Hk prog Hok Hreg Hpan. pose proof (PR_nil (s_ok Hs) (s_comp Hs) (s_alloc Hs) (s_d Hs) (s_fd Hs)) as H0. split.
  - split.
    + intros H. destruct (run_inline Hs Hk prog H0 Hok (Forall_nil _) H) as [H1 H2]. rewrite H1. split; [exact H2|].
      split; intros G; apply in_map_iff in G; destruct G as [x [G _]]; discriminate.
    + intros (H1 & H2 & H3). exact (run_spills Hs Hk prog H0 Hok (Forall_nil _) Hreg Hpan H1 H2 H3).
  - intros H. apply (run_inline Hs Hk prog H0 Hok (Forall_nil _) H).
Qed.

(** ** examples *)
Definition stack_only := std_cfg 32 64 false true 4.   (* an allocator that grants nothing beyond the inline buffer *)
Definition f2 (x : N) : Fin 2 := match mkFin 2 x with Some y => y | None => fv 2 0 eq_refl end.
Lemma stack_only_ok : setting stack_only (fin 2) /\ keeps_inline stack_only /\ setting small_release (fin 2) /\ keeps_inline small_release.
Proof.
  split; [apply fin_setting; [split; [apply std_cfg_ok; cbn; auto 10|reflexivity]; intros _; split; [reflexivity|discriminate]|reflexivity|discriminate]|].
  split; [split; [reflexivity|]; intros n; cbn; lia|].
  split; [apply fin_setting; [apply small_release_ok|reflexivity|discriminate]|]. split; [reflexivity|]. intros n. cbn. lia.
Qed.
(** without any heap: 128 pushed booleans are fine, removing, inserting, cloning and appending too; collecting
    128 booleans aborts, collecting 127 does not *)
Example C51_example :
  let b := fun k => f2 k in
  let prog := [OFromSlice (repeat (b 1) 127); OPush 0 (b 0); ORemove 0 5; OInsert 0 7 (b 1); OClone 0; OTruncate 0 64; OTruncate 1 64; OShrink 1; OAppend 0 1; OWithCapacity 128; OClone 0; OResize 0 9 (b 0)] in
  all_inline stack_only (fin 2) [] prog = true /\ all_inline_vec (fin 2) [] prog = true /\ ok_program stack_only (fin 2) prog = true /\
  map len (snd (m_run stack_only (fin 2) [] prog)) = [9; 0; 0; 128] /\
  from_slice stack_only (fin 2) (repeat (b 1) 128) = Abort /\
  (exists v, from_slice small_release (fin 2) (repeat (b 1) 128) = Ret v /\ vcap (storage v) = 8).
Proof. cbv zeta. repeat (split; [vm_compute; reflexivity|]). eexists. split; vm_compute; reflexivity. Qed.
(** filled to the brim by an iterator that promises one element less: inline; by one that promises all of
    them, or reserving for what is already there: not *)
Example C51_exact_example :
  let brim := fun lo => mkIter (repeat (f2 1) 128) lo false in
  all_exact (fin 2) [] [ONew; OFromIter (brim 127); OExtend 0 (brim 127); OClone 1; OTruncate 0 64; OTruncate 1 64; OAppend 0 1] = true /\
  ok_program stack_only (fin 2) [ONew; OFromIter (brim 127); OExtend 0 (brim 127); OClone 1; OTruncate 0 64; OTruncate 1 64; OAppend 0 1] = true /\
  all_exact (fin 2) [] [OFromIter (brim 128)] = false /\ all_exact (fin 2) [] [OFromIter (brim 127); OReserve 0 0] = false /\
  all_exact (fin 2) [] [OFromIter (brim 127); OExtend 0 (mkIter [] 0 false)] = false.
Proof. cbv zeta. repeat (split; [vm_compute; reflexivity|]). vm_compute. reflexivity. Qed.
