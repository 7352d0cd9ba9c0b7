(** Capacity.v -- which calls may change how much memory a vector occupies.  Specification
    only: no proofs. *)
From Verif Require Export Claims.
Open Scope N_scope.
Set Implicit Arguments.

(** Calls that never ask their container for more room, nor give any back. *)
Definition in_place {T} (o : op T) : bool :=
  match o with
  | OPop _ | ORemove _ _ | OSwap _ _ _ | OSwapRemove _ _ | OTruncate _ _ | OClear _ | ORead _ _ | OSet _ _ _
  | ORetain _ _ | OForEach _ _ | OAny _ _ | OAll _ _ | OEq _ _ | OHash _ | OToVec _ | OIter _ _ | OLen _ | OIsEmpty _ => true
  | _ => false
  end.
(** The call is v.shrink_to_fit() for the vector v in position r. *)
Definition shrinks {T} (r : nat) (o : op T) : bool :=
  match o with OShrink r' => Nat.eqb r' r | _ => false end.

(** The number of blocks vector r of a pool has room for, and its capacity(); 0 if there is no such vector. *)
Definition blocks_of (p : list ev) (r : nat) : N :=
  match nth_error p r with Some v => vcap (storage v) | None => 0 end.
Definition capacity_of {T} (c : cfg) (E : enumlike T) (p : list ev) (r : nat) : N :=
  match nth_error p r with Some v => capacity c E v | None => 0 end.

(** The number of calls of a program that move vector r to another allocation. *)
Fixpoint moves {T} (c : cfg) (E : enumlike T) (r : nat) (p : list ev) (prog : list (op T)) : N :=
  match prog with
  | [] => 0
  | o :: prog' =>
      let '(res, p') := m_step c E p o in
      (if blocks_of p' r =? blocks_of p r then 0 else 1) +
      match res with MAbort | MUB => 0 | _ => moves c E r p' prog' end
  end.

(** The number of blocks copied by those moves, when each call moves the vector at most once:
    the initialised ones it had before the call. *)
Fixpoint copied {T} (c : cfg) (E : enumlike T) (r : nat) (p : list ev) (prog : list (op T)) : N :=
  match prog with
  | [] => 0
  | o :: prog' =>
      let '(res, p') := m_step c E p o in
      (if blocks_of p' r =? blocks_of p r then 0 else match nth_error p r with Some v => vlen (storage v) | None => 0 end) +
      match res with MAbort | MUB => 0 | _ => copied c E r p' prog' end
  end.

(** The container at least doubles its capacity whenever it grows (Vec and SmallVec do), *)
Definition doubling (c : cfg) : Prop := forall cap need, cap < need -> 2 * cap <= grow c cap need.
(** and takes no more than doubling, what is asked for, or the minimal allocation requires
    (8 blocks for Vec<u8>, 4 for the other storages). *)
Definition frugal (c : cfg) : Prop := forall cap need, cap < need -> grow c cap need <= N.max (2 * cap) (N.max 8 need).
