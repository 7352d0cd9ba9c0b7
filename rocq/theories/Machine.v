(** Machine.v -- outcomes, machine arithmetic and the configuration under which
    the crates of /repo are compiled.  Model only: no proofs in this file. *)
From Coq Require Export List NArith ZArith Lia Bool Arith.
Export ListNotations.
Open Scope N_scope.
Set Implicit Arguments.

(** Why a panic happened.
    PIndex: checked slice/Vec index or the explicit panic! of set_raw (mod.rs:548).
    PUnwrap: Option::unwrap on None.   PExpect: .expect("capacity overflow").
    POverflow: arithmetic overflow check (debug builds).
    PCapacity: Vec/SmallVec "capacity overflow" (more than isize::MAX bytes).
    PUser: a user closure or iterator panicked.
    PDiscr: T::from_discr was given a number it does not handle (unreachable!()).
    PAssert: assert!.   PDiv: division or remainder by zero. *)
Inductive panic := PIndex | PUnwrap | PExpect | POverflow | PCapacity | PUser | PDiscr | PAssert | PDiv.

(** Outcome of running Rust code.
    Abort: the allocator refused memory, the process dies.
    UB: undefined behaviour (get_unchecked outside the initialised length). *)
Inductive outcome (A : Type) :=
| Ret (a : A)
| Panic (k : panic)
| Abort
| UB.
Arguments Ret {A} a. Arguments Panic {A} k. Arguments Abort {A}. Arguments UB {A}.

Definition obind {A B} (m : outcome A) (f : A -> outcome B) : outcome B :=
  match m with
  | Ret a => f a
  | Panic k => Panic k
  | Abort => Abort
  | UB => UB
  end.
Notation "'let!' x ':=' m 'in' k" := (obind m (fun x => k))
  (at level 200, x pattern, m at level 100, k at level 200, right associativity).

(** Option::unwrap *)
Definition unwrap {A} (o : option A) : outcome A :=
  match o with Some a => Ret a | None => Panic PUnwrap end.

(** Code with access to a mutable state of type S (a [&mut self] method).  The
    state is returned on every outcome: after [Panic] it is what a caller that
    catches the panic would see.  After [Abort]/[UB] it is meaningless. *)
Definition M (S A : Type) := S -> outcome A * S.
Definition ret {S A} (a : A) : M S A := fun s => (Ret a, s).
Definition lift {S A} (o : outcome A) : M S A := fun s => (o, s).
Definition reads {S A} (f : S -> outcome A) : M S A := fun s => (f s, s).
Definition bind {S A B} (m : M S A) (f : A -> M S B) : M S B := fun s =>
  match m s with
  | (Ret a, s') => f a s'
  | (Panic k, s') => (Panic k, s')
  | (Abort, s') => (Abort, s')
  | (UB, s') => (UB, s')
  end.
Notation "x <- m ;; k" := (bind m (fun x => k))
  (at level 100, m at level 99, k at level 200, right associativity).
Notation "m ;;; k" := (bind m (fun _ => k))
  (at level 100, k at level 200, right associativity).

(** A method of one component of a pair of &mut references. *)
Definition on_fst {S R A} (m : M S A) : M (S * R) A := fun s =>
  let '(o, s1) := m (fst s) in (o, (s1, snd s)).
Definition on_snd {S R A} (m : M R A) : M (S * R) A := fun s =>
  let '(o, s2) := m (snd s) in (o, (fst s, s2)).

(** [for i in start..start+n { body(i) }].  Rust's Range never overflows. *)
Fixpoint for_range {S} (n : nat) (start : N) (body : N -> M S unit) : M S unit :=
  match n with
  | O => ret tt
  | Datatypes.S n' => body start ;;; for_range n' (start + 1) body
  end.

(** Compilation target and build profile.
    - [W]: STORAGE_BLOCK_SIZE (enum_vec/src/vec_u8 .. vec_u128/mod.rs:11).
    - [usize_bits]: pointer width of the target.
    - [ovf]: overflow checks enabled (debug profile).
    - [small]: the storage is SmallVec<[u32; 4]> (enum_vec/src/smallvec_u32/mod.rs:11).
    - [grow cap need]: new capacity chosen by the container when it must hold
      [need] > [cap] blocks.  [shrink cap len]: capacity after shrink_to_fit.
      Both are oracles, constrained only by [cfg_ok] (Facts).
    - [alloc_max]: largest capacity (in blocks) the allocator grants. *)
Record cfg := {
  W : N;
  usize_bits : N;
  ovf : bool;
  small : bool;
  grow : N -> N -> N;
  shrink : N -> N -> N;
  alloc_max : N
}.

Section Arith.
  Variable c : cfg.

  Definition usize_max : N := 2 ^ usize_bits c - 1.
  Definition isize_max : N := 2 ^ (usize_bits c - 1) - 1.

  (** usize [a + b], [a - b], [a * b] under both profiles. *)
  Definition uadd (a b : N) : outcome N :=
    if a + b <=? usize_max then Ret (a + b)
    else if ovf c then Panic POverflow else Ret ((a + b) mod 2 ^ usize_bits c).
  Definition usub (a b : N) : outcome N :=
    if b <=? a then Ret (a - b)
    else if ovf c then Panic POverflow else Ret (a + 2 ^ usize_bits c - b).
  Definition umul (a b : N) : outcome N :=
    if a * b <=? usize_max then Ret (a * b)
    else if ovf c then Panic POverflow else Ret ((a * b) mod 2 ^ usize_bits c).

  (** [x as StorageBlock] and [x as usize] *)
  Definition cast_block (x : N) : N := x mod 2 ^ W c.
  Definition cast_usize (x : N) : N := x mod 2 ^ usize_bits c.

  (** [!x] on a storage block *)
  Definition bnot (x : N) : N := N.lnot x (W c).
  (** [!0] on a storage block *)
  Definition bones : N := N.ones (W c).
  (** [x << n], [x >> n] on a storage block: a shift amount >= W panics with
      overflow checks, otherwise it is taken modulo W (a power of two). *)
  Definition shl (x n : N) : outcome N :=
    if n <? W c then Ret (N.shiftl x n mod 2 ^ W c)
    else if ovf c then Panic POverflow else Ret (N.shiftl x (n mod W c) mod 2 ^ W c).
  Definition shr (x n : N) : outcome N :=
    if n <? W c then Ret (N.shiftr x n)
    else if ovf c then Panic POverflow else Ret (N.shiftr x (n mod W c)).
  (** [x * y] on a storage block *)
  Definition bmul (x y : N) : outcome N :=
    if x * y <? 2 ^ W c then Ret (x * y)
    else if ovf c then Panic POverflow else Ret ((x * y) mod 2 ^ W c).
  (** [x.wrapping_sub(y)] on a storage block, for x, y < 2^W *)
  Definition bwrapping_sub (x y : N) : N := (x + 2 ^ W c - y) mod 2 ^ W c.
End Arith.

(** Lists indexed by N (slices indexed by usize). *)
Definition lenN {A} (l : list A) : N := N.of_nat (length l).
Definition nthN {A} (l : list A) (i : N) : option A := nth_error l (N.to_nat i).
Fixpoint upd {A} (l : list A) (i : nat) (x : A) : list A :=
  match l, i with
  | [], _ => []
  | _ :: t, O => x :: t
  | h :: t, Datatypes.S i' => h :: upd t i' x
  end.
Definition updN {A} (l : list A) (i : N) (x : A) : list A := upd l (N.to_nat i) x.
