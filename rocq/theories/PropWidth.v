(** PropWidth.v -- element width, types with more than 2^32 variants, efficiency. *)
From Verif Require Import ProgFacts.
Open Scope N_scope.

(** ** C01 *)
(** missing: u64 and u128 storage with more than 2^32 variants *)
Theorem C01_width_partial : forall T (c : cfg) (E : enumlike T), cfg_ok c -> compiles c E = true ->
  W c <= 32 \/ nv E <= 2 ^ 32 ->
  2 ^ (BITS E - 1) < nv E /\ nv E <= 2 ^ BITS E /\ 1 <= EPB c E /\
  EPB c E * BITS E <= W c /\ W c < (EPB c E + 1) * BITS E.
Proof. intros T c E H1 H2 H3. exact (width_minimal H1 H2 H3). Qed.
Theorem C01_compiles : forall T (c : cfg) (E : enumlike T),
  compiles c E = true <-> 2 <= nv E /\ (W c < 64 -> nv E <= 2 ^ W c).
Proof. intros T c E. exact (@compiles_iff T c E). Qed.
Theorem C01_width_refuted : ~ C01_full.
Proof. exact C01_not. Qed.
Example C01_example : map (fun n => BITS (fin n)) [2; 3; 4; 5; 256; 257; 2 ^ 32] = [1; 2; 2; 3; 8; 9; 32] /\
  map (fun n => EPB u32_debug (fin n)) [2; 3; 5; 257] = [32; 16; 10; 3] /\ compiles u32_debug (fin (2 ^ 32)) = true.
Proof. split; [vm_compute; reflexivity|]. split; vm_compute; reflexivity. Qed.

(** ** C29: more than 2^32 variants *)
(** rejected at compile time by the u8, u16, u32 and smallvec storages; missing: u64, u128 *)
Theorem C29_rejected_partial : forall T (c : cfg) (E : enumlike T), cfg_ok c -> W c <= 32 -> 2 ^ 32 < nv E -> compiles c E = false.
Proof. intros T c E H1 H2 H3. exact (wide_rejected H1 H2 H3). Qed.
(** the other storages accept it, with elements of only 32 bits *)
Theorem C29_accepted : forall T (c : cfg) (E : enumlike T), cfg_ok c -> compiles c E = true -> 2 ^ 32 < nv E ->
  BITS E = 32 /\ 64 <= W c.
Proof. intros T c E H1 H2 H3. exact (width_32 H1 H2 H3). Qed.
(** and then [0, 0].set(0, 2^32) changes element 1 *)
Theorem C29_refuted : ~ C29_full.
Proof. exact C29_not. Qed.
Example C29_example : compiles u64_release (fin (2 ^ 33)) = true /\ compiles u32_release (fin (2 ^ 33)) = false.
Proof. split; vm_compute; reflexivity. Qed.

(** ** C38: efficiency *)
(** the bits per element, W / (elements per block), are at most those of the smallest of
    u8, u16, u32 that can hold the element (when a block can hold that) *)
Theorem C38_bits_per_element : forall T (c : cfg) (E : enumlike T) u, cfg_ok c -> compiles c E = true ->
  In u [8; 16; 32] -> BITS E <= u -> u <= W c -> W c <= u * EPB c E.
Proof. intros T c E u H1 H2 H3 H4 H5. exact (dense H1 H2 H3 H4 H5). Qed.
(** so n elements shrunk to fit take at most the n*u bits of a Vec, plus the rounding up to a whole block *)
Theorem C38_total_bits : forall T (c : cfg) (E : enumlike T), setting c E -> forall v l u, holds c E v l -> l <> [] -> countable c E (lenN l) ->
  In u [8; 16; 32] -> BITS E <= u -> u <= W c ->
  exists v', shrink_to_fit c E v = (Ret tt, v') /\ holds c E v' l /\
    vlen (storage v') = (lenN l + (EPB c E - 1)) / EPB c E /\
    W c * vlen (storage v') + u <= u * lenN l + W c.
Proof. intros T c E Hs v l u H Hl Hn Hu H4 H5. exact (shrink_dense Hs Hn H Hl Hu H4 H5). Qed.
Example C38_example : setting u32_debug (fin 5) /\ countable u32_debug (fin 5) (lenN old_list) /\ old_list <> [] /\ BITS (fin 5) <= 8 /\ 8 <= W u32_debug.
Proof. split; [exact s_u32d_5|]. split; [vm_compute; discriminate|]. split; [discriminate|]. split; vm_compute; discriminate. Qed.
