(** PropEff.v -- C52: the figures of README.md "Memory efficiency".
    [better c E]: a full block takes fewer bits than its elements take in a Vec (EffFacts.v). *)
From Verif Require Import WidthFacts EffFacts.
Open Scope N_scope.

(** A block of W bits wastes W % n bits (n bits per element): the efficiency is 1 - (W % n) / W. *)
Theorem C52_efficiency : forall T (c : cfg) (E : enumlike T), cfg_ok c -> compiles c E = true ->
  EPB c E * BITS E + W c mod BITS E = W c.
Proof. intros T c E Hc H. exact (waste Hc H). Qed.
(** 100% efficient exactly for elements of 1, 2, 4, 8, 16 or 32 bits. *)
Theorem C52_perfect : forall T (c : cfg) (E : enumlike T), cfg_ok c -> compiles c E = true ->
  EPB c E * BITS E = W c <-> In (BITS E) [1; 2; 4; 8; 16; 32].
Proof. intros T c E Hc H. pose proof (waste Hc H) as G. rewrite <- (waste_none Hc H). lia. Qed.
(** "Efficiency limits", the largest element size for which the storage is better than a Vec:
    4 (u8), 5 (u16), 10 (u32, smallvec), 21 (u64) and 25 (u128) bits.
    Missing from the README's table: its figures 4, 4, 11, 22, 42 (see C52_limits_refuted). *)
Theorem C52_limits_partial : forall T (c : cfg) (E : enumlike T), cfg_ok c -> compiles c E = true ->
  (better c E -> BITS E <= limit (W c)) /\ (BITS E = limit (W c) -> better c E).
Proof. intros T c E Hc H. split; [exact (better_limit Hc H)|exact (at_limit Hc)]. Qed.
(** The table is right only for EnumVec8: in EnumVec16 elements of 5 bits are better off than in a
    Vec, in EnumVec32 those of 11 bits and in EnumVec64 those of 22 bits are not; and no element
    takes 42 bits. *)
Theorem C52_limits_refuted :
  (forall T (c : cfg) (E : enumlike T), cfg_ok c -> W c = 16 -> BITS E = 5 -> better c E /\ readme_limit (W c) < BITS E) /\
  (forall T (c : cfg) (E : enumlike T), cfg_ok c -> W c = 32 \/ W c = 64 -> BITS E = readme_limit (W c) -> ~ better c E) /\
  (forall T (c : cfg) (E : enumlike T), cfg_ok c -> compiles c E = true -> BITS E < 42).
Proof.
  split; [|split].
  - intros T c E Hc H1 H2. unfold better, EPB. rewrite H1, H2. split; reflexivity.
  - intros T c E Hc [H|H] G; unfold better, EPB; rewrite G, H; intros K; discriminate K.
  - intros T c E Hc H. pose proof (BITS_range Hc H). lia.
Qed.
Example C52_example : better u32_debug (fin 1000) /\ BITS (fin 1000) = limit 32 /\ ~ better u32_debug (fin 2000) /\ BITS (fin 2000) = readme_limit 32 /\
  better u128_release (fin (2 ^ 25)) /\ ~ better u128_release (fin (2 ^ 26)) /\ compiles u32_debug (fin 2000) = true.
Proof. unfold better. repeat split; vm_compute; try reflexivity; discriminate. Qed.
