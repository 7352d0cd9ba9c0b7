(** EnumSet.v -- model of enum_set/src/lib.rs ("lib.rs" below).  Model only: no proofs.

    The crate wraps bit_set::BitSet, an external dependency that is not part of /repo.
    Its documented contract is used instead: a BitSet is a set of numbers, iterated in
    ascending order, compared and hashed through its iterator.  Here it is the strictly
    ascending list of its members.  Not modelled: memory exhaustion when it grows, its
    capacity (shrink_to_fit has no observable effect), size_hint of its iterators. *)
From Verif Require Export Trait.
Open Scope N_scope.
Set Implicit Arguments.

Definition bitset := list N.
(** ** bit_set::BitSet *)
Definition bs_contains (s : bitset) (d : N) : bool := existsb (N.eqb d) s.
Fixpoint bs_add (d : N) (s : bitset) : bitset :=
  match s with
  | [] => [d]
  | e :: s' => if d <? e then d :: s else if d =? e then s else e :: bs_add d s'
  end.
(** true when the value was not already there *)
Definition bs_insert (d : N) (s : bitset) : bool * bitset := (negb (bs_contains s d), bs_add d s).
(** true when the value was there *)
Definition bs_remove (d : N) (s : bitset) : bool * bitset := (bs_contains s d, filter (fun e => negb (e =? d)) s).
Definition bs_union (s t : bitset) : bitset := fold_right bs_add t s.
Definition bs_intersection (s t : bitset) : bitset := filter (bs_contains t) s.
Definition bs_difference (s t : bitset) : bitset := filter (fun d => negb (bs_contains t d)) s.
Definition bs_symmetric_difference (s t : bitset) : bitset := bs_union (bs_difference s t) (bs_difference t s).
Definition bs_is_subset (s t : bitset) : bool := forallb (bs_contains t) s.
Definition bs_is_disjoint (s t : bitset) : bool := forallb (fun d => negb (bs_contains t d)) s.
Fixpoint bs_eq (s t : bitset) : bool :=
  match s, t with
  | [], [] => true
  | d :: s', e :: t' => (d =? e) && bs_eq s' t'
  | _, _ => false
  end.
(** Iterator::cmp *)
Fixpoint bs_cmp (s t : bitset) : comparison :=
  match s, t with
  | [], [] => Eq
  | [], _ => Lt
  | _, [] => Gt
  | d :: s', e :: t' => match d ?= e with Eq => bs_cmp s' t' | o => o end
  end.

Section EnumSet.
  Context {T : Type} (E : enumlike T).

  (** lib.rs:32-57: EnumSet { inner }; into_bit_set, get_ref, from_bit_set, new, Default (166-170) *)
  Definition set := bitset.
  Definition set_into_bits (s : set) : bitset := s.
  Definition set_from_bits (b : bitset) : set := b.
  Definition set_new : set := [].
  (** lib.rs:60-62 *)
  Definition set_shrink : M set unit := ret tt.
  (** lib.rs:98-115 *)
  Definition set_union_with (t : set) : M set unit := fun s => (Ret tt, bs_union s t).
  Definition set_intersect_with (t : set) : M set unit := fun s => (Ret tt, bs_intersection s t).
  Definition set_difference_with (t : set) : M set unit := fun s => (Ret tt, bs_difference s t).
  Definition set_symmetric_difference_with (t : set) : M set unit := fun s => (Ret tt, bs_symmetric_difference s t).
  (** lib.rs:118-130 *)
  Definition set_len (s : set) : N := lenN s.
  Definition set_is_empty (s : set) : bool := match s with [] => true | _ => false end.
  Definition set_clear : M set unit := fun _ => (Ret tt, []).
  (** lib.rs:133-136 *)
  Definition set_contains (s : set) (x : T) : bool := bs_contains s (to_d E x).
  (** lib.rs:139-151 *)
  Definition set_is_disjoint (s t : set) : bool := bs_is_disjoint s t.
  Definition set_is_subset (s t : set) : bool := bs_is_subset s t.
  Definition set_is_superset (s t : set) : bool := bs_is_subset t s.
  (** lib.rs:154-163 *)
  Definition set_insert (x : T) : M set bool := fun s =>
    let '(b, s') := bs_insert (to_d E x) s in (Ret b, s').
  Definition set_remove (x : T) : M set bool := fun s =>
    let '(b, s') := bs_remove (to_d E x) s in (Ret b, s').
  (** lib.rs:180-186.  The iterator yields xs and then ends, or panics if [panics]. *)
  Fixpoint set_extend (xs : list T) (panics : bool) : M set unit :=
    match xs with
    | [] => if panics then lift (Panic PUser) else ret tt
    | x :: xs' => set_insert x ;;; set_extend xs' panics
    end.
  (** lib.rs:172-178; on a panic the new set is dropped *)
  Definition set_from_iter (xs : list T) (panics : bool) : outcome set :=
    match set_extend xs panics set_new with
    | (Ret _, s) => Ret s
    | (Panic k, _) => Panic k
    | (Abort, _) => Abort
    | (UB, _) => UB
    end.
  (** lib.rs:25: derived PartialEq, Ord and Hash: those of BitSet *)
  Definition set_eq (s t : set) : bool := bs_eq s t.
  Definition set_cmp (s t : set) : comparison := bs_cmp s t.
  Definition set_hash (s : set) : list N := s.

  (** WrapIter, lib.rs:199-202, 215-229: the numbers still to come from the inner iterator.
      The iterators of BitSet have finished when they return None. *)
  Definition wrap := list N.
  (** lib.rs:65-67 and 231-238; 78-95 *)
  Definition set_iter (s : set) : wrap := s.
  Definition set_union (s t : set) : wrap := bs_union s t.
  Definition set_intersection (s t : set) : wrap := bs_intersection s t.
  Definition set_difference (s t : set) : wrap := bs_difference s t.
  Definition set_symmetric_difference (s t : set) : wrap := bs_symmetric_difference s t.
  (** lib.rs:223-225.  The inner iterator has moved on when from_discr panics. *)
  Definition wrap_next : M wrap (option T) := fun i =>
    match i with
    | [] => (Ret None, [])
    | d :: i' => match from_discr E d with
                 | Ret x => (Ret (Some x), i')
                 | Panic k => (Panic k, i')
                 | Abort => (Abort, i')
                 | UB => (UB, i')
                 end
    end.
  (** n calls of next; [for x in ..], collect(), Debug (lib.rs:188-192) *)
  Fixpoint wrap_run (n : nat) : M wrap (list (option T)) :=
    match n with
    | O => ret []
    | S n' => o <- wrap_next ;; os <- wrap_run n' ;; ret (o :: os)
    end.

  (** ** Programs on a pool of sets *)
  Inductive sop :=
  | SNew
  | SFromIter (xs : list T) (panics : bool)
  | SFromBits (b : bitset)
  | SClone (r : nat)
  | SInsert (r : nat) (x : T)
  | SRemove (r : nat) (x : T)
  | SClear (r : nat)
  | SShrink (r : nat)
  | SExtend (r : nat) (xs : list T) (panics : bool)
  | SUnionWith (r r2 : nat)
  | SIntersectWith (r r2 : nat)
  | SDifferenceWith (r r2 : nat)
  | SSymmetricDifferenceWith (r r2 : nat).
  Definition pool := list set.
  Fixpoint put (p : pool) (r : nat) (s : set) : pool :=
    match p, r with
    | [], _ => []
    | _ :: p', O => s :: p'
    | t :: p', S r' => t :: put p' r' s
    end.
  (** A panic of a user's iterator is caught; the program goes on. *)
  Definition on {A} (p : pool) (r : nat) (m : M set A) : pool :=
    match nth_error p r with Some s => put p r (snd (m s)) | None => p end.
  Definition sstep (p : pool) (o : sop) : pool :=
    match o with
    | SNew => p ++ [set_new]
    | SFromIter xs panics => match set_from_iter xs panics with Ret s => p ++ [s] | _ => p end
    | SFromBits b => p ++ [set_from_bits b]
    | SClone r => match nth_error p r with Some s => p ++ [s] | None => p end
    | SInsert r x => on p r (set_insert x)
    | SRemove r x => on p r (set_remove x)
    | SClear r => on p r set_clear
    | SShrink r => on p r set_shrink
    | SExtend r xs panics => on p r (set_extend xs panics)
    | SUnionWith r r2 => match nth_error p r2 with Some t => on p r (set_union_with t) | None => p end
    | SIntersectWith r r2 => match nth_error p r2 with Some t => on p r (set_intersect_with t) | None => p end
    | SDifferenceWith r r2 => match nth_error p r2 with Some t => on p r (set_difference_with t) | None => p end
    | SSymmetricDifferenceWith r r2 => match nth_error p r2 with Some t => on p r (set_symmetric_difference_with t) | None => p end
    end.
  Fixpoint srun (p : pool) (os : list sop) : pool :=
    match os with
    | [] => p
    | o :: os' => srun (sstep p o) os'
    end.
End EnumSet.
Arguments sop T : clear implicits.
Arguments SNew {T}.
Arguments SFromBits {T} b.
Arguments SClone {T} r.
Arguments SClear {T} r.
Arguments SShrink {T} r.
