(** Relate.v -- corresponding calls on vectors of two element types, and corresponding answers.
    R says which values of T1 and T2 correspond.  No proofs in this file. *)
From Verif Require Export Client.
Open Scope N_scope.
Set Implicit Arguments.

Section Relate.
  Context {T1 T2 : Type} (R : T1 -> T2 -> Prop).

  Definition rel_opt (a : option T1) (b : option T2) : Prop :=
    match a, b with Some x, Some y => R x y | None, None => True | _, _ => False end.
  Definition rel_iter (a : iter T1) (b : iter T2) : Prop :=
    Forall2 R (items a) (items b) /\ lower a = lower b /\ ends_in_panic a = ends_in_panic b.
  Definition rel_item (a : ires T1) (b : ires T2) : Prop :=
    match a, b with JItem x, JItem y => rel_opt x y | JNum m, JNum n => m = n | _, _ => False end.

  (** The same call with corresponding elements; closures answer corresponding questions alike. *)
  Inductive rel_op : op T1 -> op T2 -> Prop :=
  | rel_new : rel_op ONew ONew
  | rel_with_capacity n : rel_op (OWithCapacity n) (OWithCapacity n)
  | rel_from_elem x y n : R x y -> rel_op (OFromElem x n) (OFromElem y n)
  | rel_from_slice l m : Forall2 R l m -> rel_op (OFromSlice l) (OFromSlice m)
  | rel_from_iter a b : rel_iter a b -> rel_op (OFromIter a) (OFromIter b)
  | rel_clone r : rel_op (OClone r) (OClone r)
  | rel_push r x y : R x y -> rel_op (OPush r x) (OPush r y)
  | rel_pop r : rel_op (OPop r) (OPop r)
  | rel_insert r i x y : R x y -> rel_op (OInsert r i x) (OInsert r i y)
  | rel_remove r i : rel_op (ORemove r i) (ORemove r i)
  | rel_swap r a b : rel_op (OSwap r a b) (OSwap r a b)
  | rel_swap_remove r i : rel_op (OSwapRemove r i) (OSwapRemove r i)
  | rel_truncate r n : rel_op (OTruncate r n) (OTruncate r n)
  | rel_clear r : rel_op (OClear r) (OClear r)
  | rel_resize r n x y : R x y -> rel_op (OResize r n x) (OResize r n y)
  | rel_read r i : rel_op (ORead r i) (ORead r i)
  | rel_set r i x y : R x y -> rel_op (OSet r i x) (OSet r i y)
  | rel_reserve r k : rel_op (OReserve r k) (OReserve r k)
  | rel_shrink r : rel_op (OShrink r) (OShrink r)
  | rel_extend r a b : rel_iter a b -> rel_op (OExtend r a) (OExtend r b)
  | rel_append r s : rel_op (OAppend r s) (OAppend r s)
  | rel_split_off r n : rel_op (OSplitOff r n) (OSplitOff r n)
  | rel_retain r f g : (forall l m x y, Forall2 R l m -> R x y -> f l x = g m y) -> rel_op (ORetain r f) (ORetain r g)
  | rel_for_each r f g : (forall l m x y, Forall2 R l m -> R x y -> rel_opt (f l x) (g m y)) -> rel_op (OForEach r f) (OForEach r g)
  | rel_any r x y : R x y -> rel_op (OAny r x) (OAny r y)
  | rel_all r x y : R x y -> rel_op (OAll r x) (OAll r y)
  | rel_eq r s : rel_op (OEq r s) (OEq r s)
  | rel_hash r : rel_op (OHash r) (OHash r)
  | rel_to_vec r : rel_op (OToVec r) (OToVec r)
  | rel_iterate r calls : rel_op (OIter r calls) (OIter r calls)
  | rel_len r : rel_op (OLen r) (OLen r)
  | rel_is_empty r : rel_op (OIsEmpty r) (OIsEmpty r).

  (** The same answer, with corresponding elements. *)
  Definition rel_res (a : res T1) (b : res T2) : Prop :=
    match a, b with
    | RUnit, RUnit => True
    | RVal x, RVal y => R x y
    | ROpt x, ROpt y => rel_opt x y
    | RBool x, RBool y => x = y
    | RNum x, RNum y => x = y
    | RList x, RList y => Forall2 R x y
    | RNums x, RNums y => x = y
    | RIter x, RIter y => Forall2 rel_item x y
    | RPanic, RPanic => True
    | RNoReg, RNoReg => True
    | _, _ => False
    end.
  (** The same outcome: also the same resource failure, or undefined behaviour in both. *)
  Definition rel_out (a : mout T1) (b : mout T2) : Prop :=
    match a, b with
    | MRes x, MRes y => rel_res x y
    | MCap, MCap => True
    | MAbort, MAbort => True
    | MUB, MUB => True
    | _, _ => False
    end.
  (** Clients that make corresponding calls after corresponding answers. *)
  Definition rel_next (a : option (op T1)) (b : option (op T2)) : Prop :=
    match a, b with Some x, Some y => rel_op x y | None, None => True | _, _ => False end.
  Definition rel_client (k : client T1) (k' : client T2) : Prop :=
    forall s s', Forall2 rel_res s s' -> rel_next (k s) (k' s').

  (** The types number corresponding values alike, and panic at the same numbers (of as many bits as an element has). *)
  Definition same_numbering (E1 : enumlike T1) (E2 : enumlike T2) : Prop :=
    nv E1 = nv E2 /\
    (forall x y, R x y -> to_d E1 x = to_d E2 y) /\
    (forall d, d < 2 ^ BITS E1 -> rel_opt (from_d E1 d) (from_d E2 d)).
End Relate.
