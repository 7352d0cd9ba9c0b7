(** Config.v -- which configurations (target, profile, container) and element types
    the theorems talk about. *)
From Verif Require Export EnumVec.
From Coq Require Import Eqdep_dec.
Open Scope N_scope.
Set Implicit Arguments.

(** What is assumed of a configuration: one of the five block sizes of
    enum_vec/src/{vec_u8,vec_u16,vec_u32,vec_u64,vec_u128}/mod.rs:9-11 (smallvec_u32: 32),
    a 32- or 64-bit target, any growth policy that grants at least what is needed. *)
Record cfg_ok (c : cfg) : Prop := {
  ok_W : In (W c) [8; 16; 32; 64; 128];
  ok_usize : usize_bits c = 32 \/ usize_bits c = 64;
  ok_grow : forall cap need, cap < need -> need <= grow c cap need;
  ok_shrink : forall cap n, n <= cap -> n <= shrink c cap n <= cap;
  ok_small : small c = true -> W c = 32 /\ 4 <= alloc_max c
}.

(** The allocator cannot grant so many blocks that the number of bits stored in
    them reaches the range of usize.  On a 64-bit target this says: no single
    allocation of 2^61 bytes or more. *)
Definition roomy (c : cfg) : Prop := alloc_max c * W c + W c < 2 ^ usize_bits c.

(** No allocation is larger than isize::MAX bytes: std guarantees this on every target. *)
Definition alloc_isize (c : cfg) : Prop := alloc_max c * W c <= 8 * isize_max c.

(** An element type usable with configuration c: it compiles (mod.rs:71-76), and
    has at most 2^32 variants (implied by compiling, except for u64 and u128 storage). *)
Definition admits {T} (c : cfg) (E : enumlike T) : Prop :=
  compiles c E = true /\ nv E <= 2 ^ 32.

(** Concrete configurations: Rust's amortised doubling, exact shrink. *)
Definition std_cfg (w usz : N) (debug sm : bool) (amax : N) : cfg := {|
  W := w; usize_bits := usz; ovf := debug; small := sm;
  grow := fun cap need => N.max (2 * cap) need;
  shrink := fun cap n => if sm then N.min cap (N.max 4 n) else n;
  alloc_max := amax |}.

Lemma std_cfg_ok w usz debug sm amax :
  In w [8; 16; 32; 64; 128] -> usz = 32 \/ usz = 64 -> (sm = true -> w = 32 /\ 4 <= amax) ->
  cfg_ok (std_cfg w usz debug sm amax).
Proof.
  intros Hw Hu Hs. constructor; cbn; try assumption.
  - intros cap need H; lia.
  - intros cap n H; destruct sm; lia.
Qed.

(** vec_u32 (the default EnumVec), 64-bit, debug and release; 2^40 blocks of memory. *)
Definition u32_debug := std_cfg 32 64 true false (2 ^ 40).
Definition u32_release := std_cfg 32 64 false false (2 ^ 40).
Definition u8_debug := std_cfg 8 64 true false (2 ^ 40).
Definition u8_release := std_cfg 8 64 false false (2 ^ 40).
Definition u64_release := std_cfg 64 64 false false (2 ^ 40).
Definition u128_release := std_cfg 128 64 false false (2 ^ 40).
Definition small_release := std_cfg 32 64 false true (2 ^ 40).

Lemma u32_debug_ok : cfg_ok u32_debug /\ roomy u32_debug.
Proof. split; [apply std_cfg_ok; cbn; auto; discriminate|reflexivity]. Qed.
Lemma u32_release_ok : cfg_ok u32_release /\ roomy u32_release.
Proof. split; [apply std_cfg_ok; cbn; auto; discriminate|reflexivity]. Qed.
Lemma u8_release_ok : cfg_ok u8_release /\ roomy u8_release.
Proof. split; [apply std_cfg_ok; cbn; auto; discriminate|reflexivity]. Qed.
Lemma u8_debug_ok : cfg_ok u8_debug /\ roomy u8_debug.
Proof. split; [apply std_cfg_ok; cbn; auto; discriminate|reflexivity]. Qed.
Lemma u64_release_ok : cfg_ok u64_release /\ roomy u64_release.
Proof. split; [apply std_cfg_ok; cbn; auto 10; discriminate|reflexivity]. Qed.
Lemma u128_release_ok : cfg_ok u128_release /\ roomy u128_release.
Proof. split; [apply std_cfg_ok; cbn; auto 10; discriminate|reflexivity]. Qed.
Lemma small_release_ok : cfg_ok small_release /\ roomy small_release.
Proof.
  split; [apply std_cfg_ok; cbn; auto 10|reflexivity].
  intros _; split; [reflexivity|discriminate].
Qed.

(** A type with exactly n values, numbered 0..n-1; used in examples and
    counterexamples (think of a C-like enum with n variants). *)
Definition Fin (n : N) : Type := { x : N | (x <? n) = true }.
Definition mkFin (n x : N) : option (Fin n) :=
  (if x <? n as b return ((x <? n) = b -> option (Fin n))
   then fun H => Some (exist _ x H) else fun _ => None) eq_refl.
Definition fin (n : N) : enumlike (Fin n) :=
  {| nv := n; to_d := fun x => proj1_sig x; from_d := mkFin n |}.

Lemma fin_lawful n : lawful (fin n).
Proof.
  split.
  - intros [x H]; cbn. apply N.ltb_lt; exact H.
  - intros [x H]. cbn. unfold mkFin.
    assert (G : forall b (e : (x <? n) = b), b = true ->
      (if b as b return ((x <? n) = b -> option (Fin n))
       then fun H => Some (exist _ x H) else fun _ => None) e = Some (exist _ x H)).
    { intros [|] e Hb; [|discriminate]. f_equal. f_equal. apply Eqdep_dec.UIP_dec, bool_dec. }
    apply G. exact H.
Qed.
(** The value x of [Fin n] given a computed proof that it is in range, and lists of them. *)
Definition fv (n x : N) (H : (x <? n) = true) : Fin n := exist _ x H.
Definition fins (n : N) (l : list N) : list (Fin n) :=
  flat_map (fun x => match mkFin n x with Some y => [y] | None => [] end) l.
Definition nums {n} (l : list (Fin n)) : list N := map (@proj1_sig _ _) l.
