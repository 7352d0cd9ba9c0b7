(** Local.v -- which storage blocks a call may change.  Specification only: no proofs. *)
From Verif Require Export Program Guard Claims.
Open Scope N_scope.
Set Implicit Arguments.

(** Block j is in the storage of v and holds b (what storage()[j] shows). *)
Definition block_is (v : ev) (j b : N) : Prop := nthN (data (storage v)) j = Some b.

Section Local.
  Context {T : Type} (c : cfg) (E : enumlike T).
  (** the block element i is in *)
  Definition home (i : N) : N := i / EPB c E.
  (** [touches ns o r j]: may the call o change or drop block j of vector r, when the vectors
      have the lengths ns?  (r is the position of the vector in the pool.) *)
  Definition touches (ns : list N) (o : op T) (r : nat) (j : N) : bool :=
    let n := reg ns 0 r in
    match o with
    | OPush r' _ => Nat.eqb r r' && (j =? home n)
    | OInsert r' i _ => Nat.eqb r r' && ((home (N.min i n) <=? j) && (j <=? home n))
    | ORemove r' i => Nat.eqb r r' && ((i <? n) && (home i <=? j) && (j <=? home (n - 1)))
    | OSwap r' a b => Nat.eqb r r' && ((a <? n) && (b <? n) && ((j =? home a) || (j =? home b)))
    | OSwapRemove r' i => Nat.eqb r r' && ((i <? n) && ((j =? home i) || (j =? home (n - 1))))
    | OSet r' i _ => Nat.eqb r r' && ((i <? n) && (j =? home i))
    | OResize r' k _ => Nat.eqb r r' && ((n <? k) && (home n <=? j))
    | OReserve r' k => Nat.eqb r r' && (home (n + k) <? j)
    | OExtend r' _ => Nat.eqb r r' && (home n <=? j)
    | OShrink r' => Nat.eqb r r' && (n <=? j * EPB c E)
    | OAppend r' r2 => Nat.eqb r r' && (home n <=? j) || Nat.eqb r r2
    | ORetain r' _ | OForEach r' _ => Nat.eqb r r' && (j * EPB c E <? n)
    | _ => false
    end.
  (** amounts are usizes, and (one element per block) reserve does not wrap: Guard.v;
      shrink_to_fit of a vector within one block of usize::MAX is excluded (C42) *)
  Definition sane (ns : list N) (o : op T) : bool :=
    match o with
    | OReserve _ k => amount c E k
    | OExtend _ it => amount c E (lower it)
    | OResize _ n _ => usz c n
    | OShrink r => countableb c E (reg ns 0 r)
    | _ => true
    end.
  (** No call of the program works on block j of vector r. *)
  Fixpoint spared (p : list ev) (prog : list (op T)) (r : nat) (j : N) : bool :=
    match prog with
    | [] => true
    | o :: prog' => negb (touches (map len p) o r j) && spared (snd (m_step c E p o)) prog' r j
    end.
  (** The two vectors have the same length and the same blocks in use: whatever else storage() shows, and whatever
      their capacities. *)
  Definition same_used (v w : ev) : Prop :=
    len v = len w /\ forall j, j * EPB c E < len v -> nthN (data (storage v)) j = nthN (data (storage w)) j.
End Local.
