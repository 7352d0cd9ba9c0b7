(** PropGrow.v -- block fill, extend, reserve, allocation. *)
From Verif Require Import ProgFacts.
Open Scope N_scope.

(** ** C12: memory used by from_elem *)
(** the initialised storage is proportional to n; missing: the allocation *)
Theorem C12_from_elem_partial : forall T (c : cfg) (E : enumlike T), setting c E -> forall x n v, n <= usize_max c ->
  from_elem c E x n = Ret v -> vlen (storage v) = n / EPB c E + 1.
Proof. intros T c E Hs x n v Hn H. exact (from_elem_blocks Hs Hn H). Qed.
(** the allocation is at least the square of the number of blocks filled *)
Theorem C12_from_elem_quadratic_refuted : forall T (c : cfg) (E : enumlike T), setting c E -> forall x n v, n <= usize_max c ->
  4 * EPB c E < n -> from_elem c E x n = Ret v ->
  ((n - EPB c E) / EPB c E) * ((n - EPB c E) / EPB c E) <= vcap (storage v).
Proof. intros T c E Hs x n v Hn H4 H. exact (from_elem_quadratic Hs Hn H4 H). Qed.
Theorem C12_from_elem_refuted : ~ C12_full.
Proof. exact C12_not. Qed.
Example C12_example : exists v, from_elem u32_release (fin 5) (f5 1) 300 = Ret v /\ vlen (storage v) = 31 /\ vcap (storage v) = 960 /\
  4 * EPB u32_release (fin 5) < 300.
Proof. eexists. split; [vm_compute; reflexivity|]. split; [reflexivity|]. split; vm_compute; reflexivity. Qed.

(** ** C13: extend with an honest iterator *)
(** missing: one element per block and len + size hint = usize::MAX *)
Theorem C13_extend_partial : forall T (c : cfg) (E : enumlike T), setting c E -> forall v l it, holds c E v l ->
  lower it <= lenN (items it) -> lower it <= usize_max c -> reservable c E (lenN l) (lower it) ->
  result (extend c E it v) (fun _ v' => ends_in_panic it = false /\ holds c E v' (l ++ items it))
    (fun k v' => (no_room k /\ exists l1 l2, items it = l1 ++ l2 /\ holds c E v' (l ++ l1)) \/
                 (k = PUser /\ ends_in_panic it = true /\ holds c E v' (l ++ items it))).
Proof. intros T c E Hs v l it H H1 H2 H3. exact (extend_ok Hs H H1 H2 H3). Qed.
Theorem C13_from_iter_partial : forall T (c : cfg) (E : enumlike T), setting c E -> forall it,
  lower it <= lenN (items it) -> lower it <= usize_max c -> reservable c E 0 (lower it) ->
  builds (from_iter c E it) (fun v => ends_in_panic it = false /\ holds c E v (items it))
    (fun k => no_room k \/ (k = PUser /\ ends_in_panic it = true)).
Proof. intros T c E Hs it H1 H2 H3. exact (from_iter_ok Hs H1 H2 H3). Qed.
Theorem C13_from_slice_partial : forall T (c : cfg) (E : enumlike T), setting c E -> forall xs,
  lenN xs <= usize_max c -> reservable c E 0 (lenN xs) ->
  builds (from_slice c E xs) (fun v => holds c E v xs) no_room.
Proof. intros T c E Hs xs H1 H2. exact (from_slice_ok Hs H2 H1). Qed.
(** the missing corner is undefined behaviour in release builds, for every such vector *)
Theorem C13_extend_corner_refuted : forall T (c : cfg) (E : enumlike T), setting c E -> ovf c = false -> EPB c E = 1 ->
  forall v l it, holds c E v l -> items it <> [] -> lower it <> 0 -> lenN l + lower it = usize_max c ->
  fst (extend c E it v) = UB.
Proof. intros T c E Hs Ho HP v l it H H1 H2 H3. exact (extend_UB Hs Ho HP H H1 H2 H3). Qed.
Theorem C13_extend_refuted : ~ C13_full.
Proof. exact C13_not. Qed.
Example C13_example : reservable u32_debug (fin 5) (lenN old_list) 7 /\ reservable u8_debug (fin 256) 3 7 /\
  fst (extend u32_debug (fin 5) (mkIter old_list 7 false) (old_vec u32_debug)) = Ret tt.
Proof. split; [left; vm_compute; discriminate|]. split; [right; vm_compute; reflexivity|vm_compute; reflexivity]. Qed.

(** ** C14: iterators that panic or lie *)
(** what extend does with any iterator.  If fewer items than promised arrive, the vector
    stays valid and begins with the right elements, but has lower - |items| further
    elements (stale data) after them: missing is that it has none. *)
Theorem C14_extend_partial : forall T (c : cfg) (E : enumlike T), setting c E -> forall v l it, holds c E v l ->
  lower it <= usize_max c -> reservable c E (lenN l) (lower it) ->
  result (extend c E it v)
    (fun _ v' => lower it <= lenN (items it) /\ ends_in_panic it = false /\ holds c E v' (l ++ items it))
    (fun k v' =>
       (no_room k /\ exists l1 l2, items it = l1 ++ l2 /\ holds c E v' (l ++ l1)) \/
       (k = PUser /\ ends_in_panic it = true /\ lower it <= lenN (items it) /\ holds c E v' (l ++ items it)) \/
       (k = (if ends_in_panic it then PUser else PUnwrap) /\ lenN (items it) < lower it /\
          begins c E v' (l ++ items it) /\ len v' = lenN l + lower it)).
Proof. intros T c E Hs v l it H H1 H2. exact (extend_any Hs H H1 H2). Qed.
Theorem C14_extend_refuted : ~ C14_full.
Proof. exact C14_not. Qed.
Example C14_example : fst (extend u32_debug (fin 5) (mkIter [f5 1; f5 2] 7 true) (old_vec u32_debug)) = Panic PUser /\
  len (snd (extend u32_debug (fin 5) (mkIter [f5 1; f5 2] 7 true) (old_vec u32_debug))) = 19.
Proof. split; vm_compute; reflexivity. Qed.

(** ** C26: reserve *)
(** missing: release builds with one element per block and len + k = usize::MAX *)
Theorem C26_reserve_partial : forall T (c : cfg) (E : enumlike T), setting c E -> forall v l k, holds c E v l ->
  (EPB c E = 1 -> lenN l + k = usize_max c -> ovf c = true) ->
  result (reserve c E k v) (fun _ v' => holds c E v' l /\ lenN l + k <= capacity c E v') (fun _ v' => v' = v).
Proof. intros T c E Hs v l k H Hx. exact (reserve_all Hs H Hx). Qed.
(** in the missing corner every element is lost, always *)
Theorem C26_reserve_corner_refuted : forall T (c : cfg) (E : enumlike T), setting c E -> forall v l k, holds c E v l ->
  EPB c E = 1 -> lenN l + k = usize_max c -> ovf c = false ->
  exists v', reserve c E k v = (Ret tt, v') /\ len v' = lenN l /\ forall i, i < lenN l -> get c E i v' = UB.
Proof. intros T c E Hs v l k H H1 H2 H3. exact (reserve_empties Hs H H1 H2 H3). Qed.
Theorem C26_reserve_refuted : ~ C26_full.
Proof. exact C26_not. Qed.
Example C26_example : EPB u32_debug (fin 5) <> 1 /\ fst (reserve u32_debug (fin 5) 100 (old_vec u32_debug)) = Ret tt /\
  EPB u8_release (fin 256) = 1 /\ ovf u8_release = false /\ holds u8_release (fin 256) (wide_vec u8_release) wide_list.
Proof.
  split; [vm_compute; discriminate|]. split; [vm_compute; reflexivity|]. split; [vm_compute; reflexivity|].
  split; [reflexivity|exact wide_release].
Qed.

(** ** C27: allocation within capacity() *)
Theorem C27_push : forall T (c : cfg) (E : enumlike T), setting c E -> forall v l x, holds c E v l -> lenN l < capacity c E v ->
  exists v', push c E x v = (Ret tt, v') /\ holds c E v' (l ++ [x]) /\ same_allocation v v'.
Proof. intros T c E Hs v l x H Hk. exact (push_alloc Hs x H Hk). Qed.
(** missing: filling the capacity completely *)
Theorem C27_extend_partial : forall T (c : cfg) (E : enumlike T), setting c E -> forall v l it, holds c E v l ->
  lower it <= lenN (items it) -> ends_in_panic it = false -> lenN l + lenN (items it) < capacity c E v ->
  exists v', extend c E it v = (Ret tt, v') /\ holds c E v' (l ++ items it) /\ same_allocation v v'.
Proof. intros T c E Hs v l it H H1 H2 H3. exact (extend_alloc Hs H H1 H2 H3). Qed.
Theorem C27_extend_refuted : ~ C27_full.
Proof. exact C27_not. Qed.
Example C27_example : lenN old_list + 17 < capacity u32_debug (fin 5) (old_vec u32_debug).
Proof. vm_compute. reflexivity. Qed.

(** ** C41: lengths near usize::MAX *)
(** shrink_to_fit and the index arithmetic of insert and remove need the elements, counted
    with the rest of their last block, to be a usize.  That is so wherever the bits of an
    allocation are a usize (every 64-bit target in practice), and a block away from usize::MAX *)
Theorem C41_countable : forall T (c : cfg) (E : enumlike T), setting c E -> forall v l, holds c E v l ->
  (roomy c -> countable c E (lenN l + 1)) /\ (forall n, n + EPB c E <= usize_max c + 1 -> countable c E n) /\
  (forall n m, n <= m -> countable c E m -> countable c E n).
Proof.
  intros T c E Hs v l H. split; [intros Hr; exact (holds_countable Hs Hr H)|].
  split; [intros n Hn; exact (fixable_small (s_ok Hs) (s_comp Hs) Hn)|]. intros n m Hm Hn. exact (countable_le Hs Hm Hn).
Qed.
(** then the elements survive *)
Theorem C41_shrink_partial : forall T (c : cfg) (E : enumlike T), setting c E -> forall v l, holds c E v l -> countable c E (lenN l) ->
  exists v', shrink_to_fit c E v = (Ret tt, v') /\ holds c E v' l.
Proof. intros T c E Hs v l H Hn. exact (shrink_keeps Hs Hn H). Qed.
Theorem C41_shrink_refuted : ~ C41_full.
Proof. exact C41_not. Qed.
(** and a program of safe calls gets there (32-bit target, 512 MiB of storage) and reads
    outside the storage: new; extend with an iterator promising 2^32 - 1 items that panics
    (caught); shrink_to_fit; get(2^32 - 2) *)
Theorem C41_program_refuted :
  fst (m_run cfg32 (fin 2) [] (limit_prog ++ limit_prog2)) = [MRes RUnit; MRes RPanic] ++ [MRes RUnit; MUB].
Proof. exact UB_near_limit. Qed.
