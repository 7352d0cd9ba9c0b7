(** Allocator.v -- the same crate over another allocator and another container.  Specification only: no proofs. *)
From Verif Require Export Program Client User.
Open Scope N_scope.
Set Implicit Arguments.

(** a container: SmallVec or Vec, how it grows and shrinks, and the largest capacity the allocator grants *)
Record container := { is_small : bool; grows : N -> N -> N; shrinks : N -> N -> N; limit : N }.
Definition over (k : container) (c : cfg) : cfg :=
  {| W := W c; usize_bits := usize_bits c; ovf := ovf c; small := is_small k; grow := grows k; shrink := shrinks k; alloc_max := limit k |}.

(** The same vector but for its capacity: the same storage blocks, bit for bit, and the same length. *)
Definition alike (v w : ev) : Prop := data (storage v) = data (storage w) /\ num v = num w.
(** the call failed for lack of memory *)
Definition out_of_memory {A} (o : outcome A) : Prop := o = Panic PCapacity \/ o = Abort.
(** The two calls return alike, unless one of them ran out of memory. *)
Definition answers_alike {A} (Q : A -> A -> Prop) (o o' : outcome A) : Prop :=
  out_of_memory o \/ out_of_memory o' \/
  match o, o' with
  | Ret a, Ret a' => Q a a'
  | Panic k, Panic k' => k = k'
  | UB, UB => True
  | _, _ => False
  end.
(** From alike states the two methods answer alike and leave alike states, unless one ran out of memory. *)
Definition acts_alike {S A} (R : S -> S -> Prop) (Q : A -> A -> Prop) (m m' : M S A) : Prop :=
  forall s s', R s s' -> out_of_memory (fst (m s)) \/ out_of_memory (fst (m' s')) \/
    (answers_alike Q (fst (m s)) (fst (m' s')) /\ R (snd (m s)) (snd (m' s'))).
Definition alike2 (s s' : ev * ev) : Prop := alike (fst s) (fst s') /\ alike (snd s) (snd s').

(** For programs: a call failed for lack of memory (or asked for more than usize::MAX elements). *)
Definition memory {T} (o : mout T) : bool := match o with MCap | MAbort => true | _ => false end.
Definition no_append {T} (o : op T) : bool := match o with OAppend _ _ => false | _ => true end.
(** With user code that has state (User.v): the same state of the user. *)
Definition alike_user {U} (s s' : ev * U) : Prop := alike (fst s) (fst s') /\ snd s = snd s'.
Definition w_no_append {U T} (o : wop U T) : bool := match o with WPlain o => no_append o | _ => true end.
