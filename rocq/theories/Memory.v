(** Memory.v -- how much memory a call asks for.  Specification only: no proofs. *)
From Verif Require Export Claims Guard.
Open Scope N_scope.
Set Implicit Arguments.

(** The container and the allocator can provide n blocks: whatever the growth policy asks
    for when at most n blocks are needed, it is within isize::MAX bytes and is granted. *)
Definition grants (c : cfg) (n : N) : Prop :=
  forall cap need, cap < need -> need <= n ->
    grow c cap need <= alloc_max c /\ grow c cap need * (W c / 8) <= isize_max c.

(** ... and the elements that fit in n + 1 blocks can be counted in a usize. *)
Definition provides {T} (c : cfg) (E : enumlike T) (n : N) : Prop := grants c n /\ EPB c E * n + EPB c E <= usize_max c.

Section Demand.
  Context {T : Type} (c : cfg) (E : enumlike T).
  Local Notation P := (EPB c E).

  (** Blocks needed to append k copies of one element to n elements (from_elem, resize).
      Beyond four blocks' worth, the code asks for the square of the number of blocks filled (see C12). *)
  Definition fill_demand (n k : N) : N := if k <=? 4 * P then (n + k) / P + 1 else n / P + 2 + (k / P) * (k / P).
  (** Blocks that n elements occupy: n / P rounded up. *)
  Definition blocks (n : N) : N := (n + (P - 1)) / P.

  (** The number of blocks a call may ask its container for, when the vectors have the
      given lengths.  (clone asks for no more than an earlier call did.) *)
  Definition demand (ns : list N) (o : op T) : N :=
    match o with
    | OWithCapacity n => blocks n
    | OFromElem _ n => fill_demand 0 n
    | OFromSlice l => lenN l / P + 1
    | OFromIter it => N.max (lower it) (lenN (items it)) / P + 1
    | OPush r _ => reg ns 0 r / P + 1
    | OInsert r _ _ => reg ns 0 r / P + 1
    | OResize r n _ => if n <=? reg ns 0 r then 0 else fill_demand (reg ns 0 r) (n - reg ns 0 r)
    | OReserve r k => (reg ns 0 r + k) / P + 1
    | OExtend r it => (reg ns 0 r + N.max (lower it) (lenN (items it))) / P + 1
    | OAppend r r2 => if reg ns 0 r mod P =? 0 then blocks (reg ns 0 r + reg ns 0 r2) else (reg ns 0 r + reg ns 0 r2) / P + 1
    | OSplitOff r at_ => blocks (reg ns 0 r - at_)
    | _ => 0
    end.
  (** the most that any call of a program asks for: the lengths are those of the vectors
      of the program (a pool p), or those the contents of Vecs would have *)
  Fixpoint demands (p : list ev) (prog : list (op T)) : N :=
    match prog with
    | [] => 0
    | o :: prog' => N.max (demand (map len p) o) (demands (snd (m_step c E p o)) prog')
    end.
  Fixpoint vec_demands (sp : list (list T)) (prog : list (op T)) : N :=
    match prog with
    | [] => 0
    | o :: prog' => N.max (demand (map lenN sp) o) (vec_demands (snd (s_step (to_d E) sp o)) prog')
    end.
End Demand.
