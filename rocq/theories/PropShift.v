(** PropShift.v -- insert, remove, append, split_off.  The full statements are in
    Full.v; what the code satisfies of them carries the suffix _partial, and _refuted
    theorems prove that the full statement is false of the code. *)
From Verif Require Import ProgFacts.
Open Scope N_scope.

(** ** C04: insert *)
(** missing: elements as wide as a block (BITS = W), the panic for index > len, and indices
    in the last incomplete block below usize::MAX ([countable]; C41_countable says when that is nothing) *)
Theorem C04_insert_partial : forall T (c : cfg) (E : enumlike T), setting c E -> BITS E < W c ->
  forall v l i x, holds c E v l -> i <= lenN l -> countable c E i ->
  result (insert c E i x v) (fun _ v' => holds c E v' (l_insert l i x)) (grow_fails c E v l).
Proof. intros T c E Hs Hw v l i x H Hi Hn. exact (insert_ok Hs x Hn Hw H Hi). Qed.
(** what happens instead of the panic, for every index > len, whatever the width *)
Theorem C04_insert_past_end : forall T (c : cfg) (E : enumlike T), setting c E ->
  forall v l i x, holds c E v l -> lenN l < i -> i <= usize_max c ->
  result (insert c E i x v)
    (fun _ v' => holds c E v' (l ++ [x]))
    (fun k v' => grow_fails c E v l k v' \/
                 (k = POverflow /\ ovf c = true /\ usize_max c < i + EPB c E /\ holds c E v' (l ++ [x]))).
Proof. intros T c E Hs v l i x H Hi Hu. exact (insert_past Hs x H Hi Hu). Qed.
Theorem C04_insert_refuted : ~ C04_full.
Proof. exact C04_not. Qed.
(** BITS = W: [7; 200; 9].insert(1, 5) in an EnumVec of 256-variant elements in u8 blocks *)
Theorem C04_insert_wide_release_refuted : exists v',
  insert u8_release (fin 256) 1 (f256 5) (wide_vec u8_release) = (Ret tt, v') /\
  to_vec u8_release (fin 256) v' = Ret (map f256 [7; 205; 201; 13]).
Proof. exact insert_wide_release. Qed.
Theorem C04_insert_wide_debug_refuted : exists v',
  insert u8_debug (fin 256) 1 (f256 5) (wide_vec u8_debug) = (Panic POverflow, v') /\
  to_vec u8_debug (fin 256) v' = Ret (map f256 [7; 200; 9; 5]).
Proof. exact insert_wide_debug. Qed.
Example C04_example : countable u32_debug (fin 5) 4 /\ BITS (fin 5) < W u32_debug /\ 4 <= lenN old_list /\
  fst (insert u32_debug (fin 5) 4 (f5 2) (old_vec u32_debug)) = Ret tt.
Proof. split; [vm_compute; discriminate|]. split; [vm_compute; reflexivity|]. split; [discriminate|vm_compute; reflexivity]. Qed.

(** ** C05: remove *)
(** missing: vectors whose unused bits are dirty (W mod BITS > 0 only) when the removal
    reaches past the next block, elements as wide as a block, and indices in the last
    incomplete block below usize::MAX *)
Theorem C05_remove_partial : forall T (c : cfg) (E : enumlike T), setting c E ->
  forall v l i x, holds c E v l -> l_get l i = Some x -> countable c E (i + 1) ->
  (BITS E < W c /\ tidy c E v) \/ lenN l <= (i / EPB c E + 1) * EPB c E + 1 ->
  exists v', remove c E i v = (Ret x, v') /\ holds c E v' (l_remove l i) /\ (tidy c E v -> tidy c E v').
Proof. intros T c E Hs v l i x H Hi Hn Hg. exact (remove_ok Hs Hn H Hi Hg). Qed.
(** no unused bits: no condition on the vector *)
Theorem C05_remove_divides_partial : forall T (c : cfg) (E : enumlike T), setting c E -> BITS E < W c -> W c mod BITS E = 0 ->
  forall v l i x, holds c E v l -> l_get l i = Some x -> countable c E (i + 1) ->
  exists v', remove c E i v = (Ret x, v') /\ holds c E v' (l_remove l i).
Proof. intros T c E Hs Hw Hm v l i x H Hi Hn. exact (remove_divides Hs Hn H Hi Hw Hm). Qed.
Theorem C05_remove_out_of_range : forall T (c : cfg) (E : enumlike T), setting c E ->
  forall v l i, holds c E v l -> lenN l <= i -> remove c E i v = (Panic PUnwrap, v).
Proof. intros T c E Hs v l i H Hi. exact (remove_oob_ok Hs H Hi). Qed.
(** for every vector and index: if remove returns, then the element asked for, and the vector is
    valid and shorter by one *)
Theorem C05_remove_returns : forall T (c : cfg) (E : enumlike T), setting c E ->
  forall v l i x, holds c E v l -> l_get l i = Some x ->
  result_noalloc (remove c E i v)
    (fun r v' => r = x /\ valid c E v' /\ len v' + 1 = len v)
    (fun k v' => k = POverflow /\ ovf c = true /\
       ((W c <= BITS E /\ valid c E v' /\ len v' + 1 = len v) \/ (~ countable c E (i + 1) /\ v' = v))).
Proof. intros T c E Hs v l i x H Hi. exact (remove_any Hs H Hi). Qed.
Theorem C05_remove_refuted : ~ C05_full.
Proof. exact C05_not. Qed.
Example C05_example : countable u32_debug (fin 5) 1 /\ holds u32_debug (fin 5) (new_vec u32_debug) new_list /\ tidy u32_debug (fin 5) (new_vec u32_debug) /\
  l_get new_list 0 = Some (f5 1) /\ W u32_release mod BITS (fin 4) = 0 /\ BITS (fin 4) < W u32_release.
Proof.
  split; [vm_compute; discriminate|]. split; [exact (proj1 new_vec_debug)|]. split; [exact (proj2 new_vec_debug)|].
  split; [reflexivity|]. split; [vm_compute; reflexivity|vm_compute; reflexivity].
Qed.

(** ** C09: append *)
(** missing: block-aligned destination with the Vec storages; and with smallvec, where the
    bits of an allocation exceed usize::MAX, sources in the last incomplete block below it,
    and totals above it (PropLimit.v says what happens there) *)
Theorem C09_append_partial : forall T (c : cfg) (E : enumlike T), setting c E ->
  forall v w l m, holds c E v l -> holds c E w m ->
  lenN l mod EPB c E <> 0 \/
    (small c = true /\ (roomy c \/ countable c E (lenN m) /\ lenN l + lenN m <= usize_max c)) ->
  result (append c E (v, w)) (fun _ s => holds c E (fst s) (l ++ m) /\ holds c E (snd s) [])
    (fun k s => no_room k /\ holds c E (fst s) l /\ holds c E (snd s) m).
Proof. intros T c E Hs v w l m H1 H2 Hg. exact (append_ok Hs H1 H2 Hg). Qed.
(** what happens then: the destination is right, the source keeps its length without
    storage, and reading it is undefined behaviour *)
Theorem C09_append_aligned_refuted : forall T (c : cfg) (E : enumlike T), setting c E -> small c = false ->
  forall v w l m, holds c E v l -> holds c E w m -> lenN l mod EPB c E = 0 ->
  roomy c \/ countable c E (lenN m) /\ lenN l + lenN m <= usize_max c ->
  result (append c E (v, w))
    (fun _ s => holds c E (fst s) (l ++ m) /\ len (snd s) = lenN m /\
                forall i, i < lenN m -> get c E i (snd s) = UB)
    (fun k s => no_room k /\ holds c E (fst s) l /\ holds c E (snd s) m).
Proof. intros T c E Hs Hsm v w l m H1 H2 Hg Hn. exact (append_aligned_UB Hs Hsm H1 H2 Hg Hn). Qed.
Theorem C09_append_refuted : ~ C09_full.
Proof. exact C09_not. Qed.
Example C09_example : lenN old_list mod EPB u32_release (fin 5) <> 0 /\ small small_release = true /\ roomy small_release /\
  fst (append u32_release (fin 5) (old_vec u32_release, two5)) = Ret tt.
Proof. split; [vm_compute; discriminate|]. split; [reflexivity|]. split; [exact (proj2 small_release_ok)|vm_compute; reflexivity]. Qed.

(** ** C10: split_off *)
(** missing: every at < len *)
Theorem C10_split_off_partial : forall T (c : cfg) (E : enumlike T), setting c E ->
  forall v l, holds c E v l ->
  result (split_off c E (lenN l) v) (fun w v' => v' = v /\ holds c E w []) (fun k v' => k = PCapacity /\ v' = v).
Proof. intros T c E Hs v l H. exact (split_off_end Hs H). Qed.
Theorem C10_split_off_out_of_range : forall T (c : cfg) (E : enumlike T), setting c E ->
  forall v l at_, holds c E v l -> lenN l < at_ -> split_off c E at_ v = (Panic PAssert, v).
Proof. intros T c E Hs v l at_ H Ha. exact (split_off_oob Hs H Ha). Qed.
(** for every at < len, unless memory runs out first, split_off itself is undefined behaviour *)
Theorem C10_split_off_UB_refuted : forall T (c : cfg) (E : enumlike T), setting c E ->
  forall v l at_, holds c E v l -> at_ < lenN l ->
  fst (split_off c E at_ v) = UB \/ fst (split_off c E at_ v) = Abort \/ split_off c E at_ v = (Panic PCapacity, v).
Proof. intros T c E Hs v l at_ H Ha. exact (split_off_UB Hs H Ha). Qed.
Theorem C10_split_off_refuted : ~ C10_full.
Proof. exact C10_not. Qed.
Example C10_example : fst (split_off u32_release (fin 5) 2 two5) <> Abort /\ fst (split_off u32_release (fin 5) 1 two5) = UB /\
  holds u32_release (fin 5) two5 (map f5 [1; 2]).
Proof. split; [vm_compute; discriminate|]. split; [vm_compute; reflexivity|exact two5_holds]. Qed.
