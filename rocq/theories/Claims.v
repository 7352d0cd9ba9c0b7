(** Claims.v -- the vocabulary of the theorems about EnumVec in Prop*.v.  No proofs.
    Lists and their operations are those of Spec.v (std::vec::Vec), programs those of
    Program.v. *)
From Verif Require Export Program Config Spec.
Open Scope N_scope.
Set Implicit Arguments.

(** A terminating call [r] on a state: [Q] holds of its value and the new state if it
    returns, [F] of the panic and the state left behind if it panics.  The allocator may
    abort the process; behaviour is never undefined. *)
Definition result {S A} (r : outcome A * S) (Q : A -> S -> Prop) (F : panic -> S -> Prop) : Prop :=
  match r with
  | (Ret a, s) => Q a s
  | (Panic k, s) => F k s
  | (Abort, _) => True
  | (UB, _) => False
  end.
(** The same for a call that allocates nothing, so cannot abort. *)
Definition result_noalloc {S A} (r : outcome A * S) (Q : A -> S -> Prop) (F : panic -> S -> Prop) : Prop :=
  match r with
  | (Ret a, s) => Q a s
  | (Panic k, s) => F k s
  | (Abort, _) => False
  | (UB, _) => False
  end.
(** The same for a call that builds a new value. *)
Definition builds {A} (r : outcome A) (Q : A -> Prop) (F : panic -> Prop) : Prop :=
  match r with
  | Ret a => Q a
  | Panic k => F k
  | Abort => True
  | UB => False
  end.
(** "capacity overflow" panics: from Vec itself, or from an expect in mod.rs. *)
Definition no_room (k : panic) : Prop := k = PCapacity \/ k = PExpect.
(** no panic at all *)
Definition no_panic {S} : panic -> S -> Prop := fun _ _ => False.

Section Claims.
  Context {T : Type} (c : cfg) (E : enumlike T).

  (** Where EnumVec is supposed to work: a supported target and storage, with allocations of
      at most isize::MAX bytes (as std guarantees), an element type that compiles (and has at
      most 2^32 variants) and obeys the EnumLike contract. *)
  Definition setting : Prop := cfg_ok c /\ alloc_isize c /\ admits c E /\ lawful E.

  (** What every safe call is supposed to preserve: blocks are W-bit numbers, the
      initialised storage covers the length, it is within the capacity, which the
      allocator granted; the length is a usize. *)
  Definition valid (v : ev) : Prop :=
    (forall b, In b (data (storage v)) -> b < 2 ^ W c) /\
    len v <= EPB c E * vlen (storage v) /\
    vlen (storage v) <= vcap (storage v) /\ vcap (storage v) <= alloc_max c /\ len v <= usize_max c.

  (** v is a valid vector whose elements are l: the number get_raw(i) reads is the
      discriminant of l[i], and there is nothing at and after the end of l. *)
  Definition holds (v : ev) (l : list T) : Prop :=
    valid v /\ forall i, get_raw c E i v = Ret (option_map (to_d E) (l_get l i)).

  (** v is a valid vector whose first elements are l (there may be others after them). *)
  Definition begins (v : ev) (l : list T) : Prop :=
    valid v /\ forall i x, l_get l i = Some x -> get_raw c E i v = Ret (Some (to_d E x)).

  (** The bits of the storage blocks not used by any element (W mod BITS per block) are 0. *)
  Definition tidy (v : ev) : Prop :=
    forall b, In b (data (storage v)) -> b < 2 ^ (EPB c E * BITS E).

  (** A size hint or reserve amount k on a vector of length n for which reserve's
      computation len + k, / EPB, + 1 stays within usize. *)
  Definition reservable (n k : N) : Prop := 2 <= EPB c E \/ n + k < usize_max c.

  (** n elements and the rest of their last block can be counted in a usize: what the index
      arithmetic of shrink_to_fit, insert, remove and append needs.  It fails only within one
      block of usize::MAX; C41 says what happens there. *)
  Definition countable (n : N) : Prop := n <= EPB c E * (usize_max c / EPB c E).

  (** How adding an element to v, which holds l, may fail: Vec's "capacity overflow", with v
      unchanged; or v has usize::MAX elements already (the expect at mod.rs:357), keeps them,
      and may have got more storage. *)
  Definition grow_fails (v : ev) (l : list T) (k : panic) (v' : ev) : Prop :=
    (k = PCapacity /\ v' = v) \/ (k = PExpect /\ lenN l = usize_max c /\ holds v' l).

  (** v still has the length of l, but no storage for the last incomplete block below
      usize::MAX: elements from there on cannot be read. *)
  Definition cut_off (v : ev) (l : list T) : Prop :=
    len v = lenN l /\
    forall i x, l_get l i = Some x -> get c E i v = if i <? EPB c E * (usize_max c / EPB c E) then Ret (Some x) else UB.

  (** What append to a block-aligned vector leaves of the source, which held l: nothing with
      SmallVec storage; with the Vec storages a length without storage (mod.rs:398). *)
  Definition emptied (v : ev) (l : list T) : Prop :=
    if small c then holds v [] else len v = lenN l /\ forall i, i < lenN l -> get c E i v = UB.

  (** Two vectors use the same allocation size. *)
  Definition same_allocation (v v' : ev) : Prop := vcap (storage v') = vcap (storage v).
End Claims.

(** ** Iterator protocols *)
Inductive subseq {A} : list A -> list A -> Prop :=
| ss_nil : subseq [] []
| ss_keep x l m : subseq l m -> subseq (x :: l) (x :: m)
| ss_skip x l m : subseq l m -> subseq l (x :: m).
(** The items yielded by front calls (next, nth), and those by next_back, in call order. *)
Fixpoint fronts {T} (calls : list icall) (rs : list (ires T)) : list T :=
  match calls, rs with
  | INext :: cs, JItem (Some x) :: rs' => x :: fronts cs rs'
  | INth _ :: cs, JItem (Some x) :: rs' => x :: fronts cs rs'
  | _ :: cs, _ :: rs' => fronts cs rs'
  | _, _ => []
  end.
Fixpoint backs {T} (calls : list icall) (rs : list (ires T)) : list T :=
  match calls, rs with
  | INextBack :: cs, JItem (Some x) :: rs' => x :: backs cs rs'
  | _ :: cs, _ :: rs' => backs cs rs'
  | _, _ => []
  end.

(** The vectors a call mentions. *)
Definition regs {T} (o : op T) : list nat :=
  match o with
  | ONew | OWithCapacity _ | OFromElem _ _ | OFromSlice _ | OFromIter _ => []
  | OClone r | OPush r _ | OPop r | OInsert r _ _ | ORemove r _ | OSwap r _ _ | OSwapRemove r _ | OTruncate r _
  | OClear r | OResize r _ _ | ORead r _ | OSet r _ _ | OReserve r _ | OShrink r | OExtend r _ | OSplitOff r _
  | ORetain r _ | OForEach r _ | OAny r _ | OAll r _ | OHash r | OToVec r | OIter r _ | OLen r | OIsEmpty r => [r]
  | OAppend r r2 | OEq r r2 => [r; r2]
  end.
