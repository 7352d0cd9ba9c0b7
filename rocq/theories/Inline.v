(** Inline.v -- when a SmallEnumVec lives in its inline buffer.  Specification only: no proofs. *)
From Verif Require Export Memory Capacity.
Open Scope N_scope.
Set Implicit Arguments.

(** A SmallVec<[u32; 4]> uses its inline buffer as long as its capacity is 4 blocks; it is
    "spilled" to the heap when its capacity is larger. *)
Definition inline (v : ev) : Prop := vcap (storage v) = 4.
(** shrink_to_fit does nothing to a SmallVec that is not spilled. *)
Definition keeps_inline (c : cfg) : Prop := small c = true /\ forall n, shrink c 4 n = 4.

Section Fits.
  Context {T : Type} (c : cfg) (E : enumlike T).
  (** The number of elements the four inline blocks hold: 128 of 1 bit, 64 of 2 bits, ... *)
  Definition inline_max : N := 4 * (32 / BITS E).
  (** The calls that a SmallEnumVec serves from the inline buffer, in terms of the numbers of
      elements of the vectors (the argument, by position): exactly full vectors are made by
      push, insert, with_capacity, split_off and (if aligned) append only. *)
  Definition fits_inline (ns : list N) (o : op T) : bool :=
    match o with
    | OWithCapacity n => n <=? inline_max
    | OFromElem _ n => n <? inline_max
    | OFromSlice l => lenN l <? inline_max
    | OFromIter it => N.max (lower it) (lenN (items it)) <? inline_max
    | OPush r _ => reg ns 0 r <? inline_max
    | OInsert r _ _ => reg ns 0 r <? inline_max
    | OResize r n _ => (n <=? reg ns 0 r) || (n <? inline_max)
    | OReserve r k => reg ns 0 r + k <? inline_max
    | OExtend r it => reg ns 0 r + N.max (lower it) (lenN (items it)) <? inline_max
    | OAppend r r2 => let n := reg ns 0 r + reg ns 0 r2 in
        if reg ns 0 r mod (32 / BITS E) =? 0 then n <=? inline_max else n <? inline_max
    | OSplitOff r at_ => reg ns 0 r - at_ <=? inline_max
    | _ => true
    end.
  (** Exactly the calls served from the inline buffer when iterators are honest: collecting and
      extending need room for one more element than the size_hint promises, not for one more than
      the iterator yields. *)
  Definition fits_exact (ns : list N) (o : op T) : bool :=
    match o with
    | OFromIter it => (lower it <? inline_max) && (N.max (lower it) (lenN (items it)) <=? inline_max)
    | OExtend r it => (reg ns 0 r + lower it <? inline_max) && (reg ns 0 r + N.max (lower it) (lenN (items it)) <=? inline_max)
    | _ => fits_inline ns o
    end.
  (** ... every call of a program *)
  Fixpoint all_inline (p : list ev) (prog : list (op T)) : bool :=
    match prog with
    | [] => true
    | o :: prog' => fits_inline (map len p) o && all_inline (snd (m_step c E p o)) prog'
    end.
  (** ... judged by the lengths of Vecs that the same program would make *)
  Fixpoint all_inline_vec (sp : list (list T)) (prog : list (op T)) : bool :=
    match prog with
    | [] => true
    | o :: prog' => fits_inline (map lenN sp) o && all_inline_vec (snd (s_step (to_d E) sp o)) prog'
    end.
  Fixpoint all_exact (sp : list (list T)) (prog : list (op T)) : bool :=
    match prog with
    | [] => true
    | o :: prog' => fits_exact (map lenN sp) o && all_exact (snd (s_step (to_d E) sp o)) prog'
    end.
End Fits.
