(** Program.v -- programs: sequences of safe API calls on a pool of vectors.
    [m_step]/[m_run] run them on the model of EnumVec, [s_step]/[s_run] on
    std::vec::Vec as specified in Spec.v.  No proofs in this file. *)
From Verif Require Export EnumVec Spec.
Open Scope N_scope.
Set Implicit Arguments.

(** Calls on an iterator obtained from iter() (or into_iter()). *)
Inductive icall := INext | INextBack | INth (n : N) | ISizeHint | ICount.
Inductive ires (T : Type) := JItem (o : option T) | JNum (n : N).
Arguments JNum {T} n.

(** A safe API call.  Vectors are named by their position in the pool;
    constructors append a vector to it.  A closure is a function of the elements it
    was shown before and the current one (this is the most general deterministic
    closure); None means it panics.  ORead r i is v.get(i). *)
Inductive op (T : Type) :=
| ONew
| OWithCapacity (n : N)
| OFromElem (x : T) (n : N)
| OFromSlice (l : list T)
| OFromIter (it : iter T)
| OClone (r : nat)
| OPush (r : nat) (x : T)
| OPop (r : nat)
| OInsert (r : nat) (i : N) (x : T)
| ORemove (r : nat) (i : N)
| OSwap (r : nat) (a b : N)
| OSwapRemove (r : nat) (i : N)
| OTruncate (r : nat) (n : N)
| OClear (r : nat)
| OResize (r : nat) (n : N) (x : T)
| ORead (r : nat) (i : N)
| OSet (r : nat) (i : N) (x : T)
| OReserve (r : nat) (k : N)
| OShrink (r : nat)
| OExtend (r : nat) (it : iter T)
| OAppend (r r2 : nat)
| OSplitOff (r : nat) (at_ : N)
| ORetain (r : nat) (f : list T -> T -> option bool)
| OForEach (r : nat) (f : list T -> T -> option T)
| OAny (r : nat) (x : T)
| OAll (r : nat) (x : T)
| OEq (r r2 : nat)
| OHash (r : nat)
| OToVec (r : nat)
| OIter (r : nat) (calls : list icall)
| OLen (r : nat)
| OIsEmpty (r : nat).
Arguments ONew {T}. Arguments OWithCapacity {T} n. Arguments OClone {T} r. Arguments OPop {T} r.
Arguments ORemove {T} r i. Arguments OSwap {T} r a b. Arguments OSwapRemove {T} r i.
Arguments OTruncate {T} r n. Arguments OClear {T} r. Arguments ORead {T} r i. Arguments OReserve {T} r k.
Arguments OShrink {T} r. Arguments OAppend {T} r r2. Arguments OSplitOff {T} r at_. Arguments OEq {T} r r2.
Arguments OHash {T} r. Arguments OToVec {T} r. Arguments OIter {T} r calls. Arguments OLen {T} r.
Arguments OIsEmpty {T} r.

(** What the caller sees.  RNoReg: the program named a vector that does not exist
    (or borrowed the same one twice); it cannot be compiled, so nothing happens. *)
Inductive res (T : Type) :=
| RUnit | RVal (x : T) | ROpt (o : option T) | RBool (b : bool) | RNum (n : N)
| RList (l : list T) | RNums (l : list N) | RIter (l : list (ires T)) | RPanic | RNoReg.
Arguments RUnit {T}. Arguments RBool {T} b. Arguments RNum {T} n. Arguments RNums {T} l.
Arguments RPanic {T}. Arguments RNoReg {T}.

(** The model's outcome of a call: a result, or a resource failure (capacity
    overflow panic, allocator abort), or undefined behaviour. *)
Inductive mout (T : Type) := MRes (r : res T) | MCap | MAbort | MUB.
Arguments MCap {T}. Arguments MAbort {T}. Arguments MUB {T}.

(** closures as state transformers: the state is the list of elements seen *)
Definition seen_pred {T} (f : list T -> T -> option bool) (seen : list T) (x : T) : option (bool * list T) :=
  match f seen x with Some b => Some (b, seen ++ [x]) | None => None end.
Definition seen_map {T} (f : list T -> T -> option T) (seen : list T) (x : T) : option (T * list T) :=
  match f seen x with Some y => Some (y, seen ++ [x]) | None => None end.

Section Model.
  Context {T : Type} (c : cfg) (E : enumlike T).

  Definition of_panic (k : panic) : mout T :=
    match k with PCapacity => MCap | PExpect => MCap | _ => MRes RPanic end.
  Definition of_outcome {A} (k : A -> res T) (o : outcome A) : mout T :=
    match o with Ret a => MRes (k a) | Panic q => of_panic q | Abort => MAbort | UB => MUB end.

  Definition m_on {A} (p : list ev) (r : nat) (m : M ev A) (k : A -> res T) : mout T * list ev :=
    match nth_error p r with
    | None => (MRes RNoReg, p)
    | Some v => let '(o, v') := m v in (of_outcome k o, upd p r v')
    end.
  Definition m_read {A} (p : list ev) (r : nat) (f : ev -> outcome A) (k : A -> res T) : mout T * list ev :=
    match nth_error p r with
    | None => (MRes RNoReg, p)
    | Some v => (of_outcome k (f v), p)
    end.
  Definition m_new (p : list ev) (o : outcome ev) : mout T * list ev :=
    match o with
    | Ret v => (MRes RUnit, p ++ [v])
    | _ => (of_outcome (fun _ => RUnit) o, p)
    end.

  Fixpoint m_iter (v : ev) (r : range) (calls : list icall) : outcome (list (ires T)) :=
    match calls with
    | [] => Ret []
    | ca :: calls' =>
        let '(o, r') :=
          match ca with
          | INext => let '(o, r') := iter_next c E v r in (let! x := o in Ret (JItem x), r')
          | INextBack => let '(o, r') := iter_next_back c E v r in (let! x := o in Ret (JItem x), r')
          | INth n => let '(o, r') := iter_nth c E v n r in (let! x := o in Ret (JItem x), r')
          | ISizeHint => (Ret (JNum (iter_size_hint r)), r)
          | ICount => (Ret (JNum (iter_count r)), mkRange (r_end r) (r_end r))
          end in
        let! x := o in
        let! l := m_iter v r' calls' in
        Ret (x :: l)
    end.

  Definition m_step (p : list ev) (o : op T) : mout T * list ev :=
    match o with
    | ONew => m_new p (Ret (ev_new c))
    | OWithCapacity n => m_new p (with_capacity c E n)
    | OFromElem x n => m_new p (from_elem c E x n)
    | OFromSlice l => m_new p (from_slice c E l)
    | OFromIter it => m_new p (from_iter c E it)
    | OClone r =>
        match nth_error p r with
        | None => (MRes RNoReg, p)
        | Some v => m_new p (clone c v)
        end
    | OPush r x => m_on p r (push c E x) (fun _ => RUnit)
    | OPop r => m_on p r (pop c E) (@ROpt T)
    | OInsert r i x => m_on p r (insert c E i x) (fun _ => RUnit)
    | ORemove r i => m_on p r (remove c E i) (@RVal T)
    | OSwap r a b => m_on p r (swap c E a b) (fun _ => RUnit)
    | OSwapRemove r i => m_on p r (swap_remove c E i) (@RVal T)
    | OTruncate r n => m_on p r (truncate n) (fun _ => RUnit)
    | OClear r => m_on p r clear (fun _ => RUnit)
    | OResize r n x => m_on p r (resize c E n x) (fun _ => RUnit)
    | ORead r i => m_read p r (get c E i) (@ROpt T)
    | OSet r i x => m_on p r (set c E i x) (fun _ => RUnit)
    | OReserve r k => m_on p r (reserve c E k) (fun _ => RUnit)
    | OShrink r => m_on p r (shrink_to_fit c E) (fun _ => RUnit)
    | OExtend r it => m_on p r (extend c E it) (fun _ => RUnit)
    | OAppend r r2 =>
        match nth_error p r, nth_error p r2 with
        | Some v, Some w =>
            if Nat.eqb r r2 then (MRes RNoReg, p)
            else let '(o, s) := append c E (v, w) in
                 (of_outcome (fun _ => RUnit) o, upd (upd p r (fst s)) r2 (snd s))
        | _, _ => (MRes RNoReg, p)
        end
    | OSplitOff r at_ =>
        match nth_error p r with
        | None => (MRes RNoReg, p)
        | Some v =>
            match split_off c E at_ v with
            | (Ret w, v') => (MRes RUnit, upd p r v' ++ [w])
            | (o, v') => (of_outcome (fun _ => RUnit) o, upd p r v')
            end
        end
    | ORetain r f => m_on p r (retain c E (seen_pred f) []) (@RList T)
    | OForEach r f => m_on p r (for_each c E (seen_map f) []) (@RList T)
    | OAny r x => m_read p r (any c E x) RBool
    | OAll r x => m_read p r (all c E x) RBool
    | OEq r r2 =>
        match nth_error p r, nth_error p r2 with
        | Some v, Some w => (of_outcome RBool (eq c E v w), p)
        | _, _ => (MRes RNoReg, p)
        end
    | OHash r => m_read p r (hash c E) RNums
    | OToVec r => m_read p r (to_vec c E) (@RList T)
    | OIter r calls => m_read p r (fun v => m_iter v (into_iter v) calls) (@RIter T)
    | OLen r => m_read p r (fun v => Ret (len v)) RNum
    | OIsEmpty r => m_read p r (fun v => Ret (is_empty v)) RBool
    end.

  (** run a program; it stops when the process died or its behaviour is undefined *)
  Fixpoint m_run (p : list ev) (prog : list (op T)) : list (mout T) * list ev :=
    match prog with
    | [] => ([], p)
    | o :: prog' =>
        let '(r, p') := m_step p o in
        match r with
        | MAbort | MUB => ([r], p')
        | _ => let '(rs, p'') := m_run p' prog' in (r :: rs, p'')
        end
    end.
End Model.

(** The same programs on Vec<T>.  [disc] is T's numbering (to_discr), used for == and Hash. *)
Section SpecRun.
  Context {T : Type} (disc : T -> N).

  Definition s_on (p : list (list T)) (r : nat) (f : list T -> res T * list T) : res T * list (list T) :=
    match nth_error p r with
    | None => (RNoReg, p)
    | Some l => let '(x, l') := f l in (x, upd p r l')
    end.

  Fixpoint l_eqb (l1 l2 : list T) : bool :=
    match l1, l2 with
    | [], [] => true
    | x :: l1', y :: l2' => (disc x =? disc y) && l_eqb l1' l2'
    | _, _ => false
    end.

  Fixpoint q_run (q : list T) (calls : list icall) : list (ires T) :=
    match calls with
    | [] => []
    | INext :: cs => JItem (fst (q_next q)) :: q_run (snd (q_next q)) cs
    | INextBack :: cs => JItem (fst (q_next_back q)) :: q_run (snd (q_next_back q)) cs
    | INth n :: cs => JItem (fst (q_nth q n)) :: q_run (snd (q_nth q n)) cs
    | ISizeHint :: cs => JNum (lenN q) :: q_run q cs
    | ICount :: cs => JNum (lenN q) :: q_run [] cs
    end.

  Definition s_step (p : list (list T)) (o : op T) : res T * list (list T) :=
    match o with
    | ONew | OWithCapacity _ => (RUnit, p ++ [[]])
    | OFromElem x n => (RUnit, p ++ [repeat x (N.to_nat n)])
    | OFromSlice l => (RUnit, p ++ [l])
    | OFromIter it => if ends_in_panic it then (RPanic, p) else (RUnit, p ++ [items it])
    | OClone r => match nth_error p r with None => (RNoReg, p) | Some l => (RUnit, p ++ [l]) end
    | OPush r x => s_on p r (fun l => (RUnit, l ++ [x]))
    | OPop r => s_on p r (fun l =>
        match l_pop l with None => (ROpt None, l) | Some (x, l') => (ROpt (Some x), l') end)
    | OInsert r i x => s_on p r (fun l => if i <=? lenN l then (RUnit, l_insert l i x) else (RPanic, l))
    | ORemove r i => s_on p r (fun l =>
        match l_get l i with Some x => (RVal x, l_remove l i) | None => (RPanic, l) end)
    | OSwap r a b => s_on p r (fun l =>
        if (a <? lenN l) && (b <? lenN l) then (RUnit, l_swap l a b) else (RPanic, l))
    | OSwapRemove r i => s_on p r (fun l =>
        match l_get l i with Some x => (RVal x, l_swap_remove l i) | None => (RPanic, l) end)
    | OTruncate r n => s_on p r (fun l => (RUnit, l_truncate l n))
    | OClear r => s_on p r (fun l => (RUnit, []))
    | OResize r n x => s_on p r (fun l => (RUnit, l_resize l n x))
    | ORead r i => s_on p r (fun l => (ROpt (l_get l i), l))
    | OSet r i x => s_on p r (fun l => if i <? lenN l then (RUnit, l_set l i x) else (RPanic, l))
    | OReserve r _ | OShrink r => s_on p r (fun l => (RUnit, l))
    | OExtend r it => s_on p r (fun l => (if ends_in_panic it then RPanic else RUnit, l ++ items it))
    | OAppend r r2 =>
        match nth_error p r, nth_error p r2 with
        | Some l, Some l2 =>
            if Nat.eqb r r2 then (RNoReg, p) else (RUnit, upd (upd p r (l ++ l2)) r2 [])
        | _, _ => (RNoReg, p)
        end
    | OSplitOff r at_ =>
        match nth_error p r with
        | None => (RNoReg, p)
        | Some l =>
            if at_ <=? lenN l
            then (RUnit, upd p r (firstn (N.to_nat at_) l) ++ [skipn (N.to_nat at_) l])
            else (RPanic, p)
        end
    (* a panicking predicate leaves the kept elements followed by the tail not yet overwritten *)
    | ORetain r f => s_on p r (fun l =>
        match l_retain (seen_pred f) [] l with
        | (k, Some seen) => (RList seen, k)
        | (k, None) => (RPanic, k ++ skipn (length k) l)
        end)
    | OForEach r f => s_on p r (fun l =>
        match l_map (seen_map f) [] l with
        | (k, Some seen) => (RList seen, k)
        | (k, None) => (RPanic, k ++ skipn (length k) l)
        end)
    | OAny r x => s_on p r (fun l => (RBool (existsb (fun y => disc y =? disc x) l), l))
    | OAll r x => s_on p r (fun l => (RBool (forallb (fun y => disc y =? disc x) l), l))
    | OEq r r2 =>
        match nth_error p r, nth_error p r2 with
        | Some l, Some l2 => (RBool (l_eqb l l2), p)
        | _, _ => (RNoReg, p)
        end
    | OHash r => s_on p r (fun l => (RNums (map disc l), l))
    | OToVec r => s_on p r (fun l => (RList l, l))
    | OIter r calls => s_on p r (fun l => (RIter (q_run l calls), l))
    | OLen r => s_on p r (fun l => (RNum (lenN l), l))
    | OIsEmpty r => s_on p r (fun l => (RBool (lenN l =? 0), l))
    end.

  Fixpoint s_run (p : list (list T)) (prog : list (op T)) : list (res T) * list (list T) :=
    match prog with
    | [] => ([], p)
    | o :: prog' => let '(r, p') := s_step p o in
                    let '(rs, p'') := s_run p' prog' in (r :: rs, p'')
    end.
End SpecRun.

(** The model's observations agree with the specification's, call by call, until
    memory runs out (a capacity overflow or an allocator abort), if it ever does. *)
Inductive agrees {T} : list (mout T) -> list (res T) -> Prop :=
| agrees_nil : agrees [] []
| agrees_step r ms rs : agrees ms rs -> agrees (MRes r :: ms) (r :: rs)
| agrees_cap ms rs : agrees (MCap :: ms) rs
| agrees_abort ms rs : agrees (MAbort :: ms) rs.
