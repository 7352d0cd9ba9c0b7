(** Guard.v -- which programs the agreement and safety theorems cover.  The calls
    excluded are exactly those where enum_vec departs from Vec (or is undefined);
    each exclusion is matched by a _refuted theorem.  No proofs in this file. *)
From Verif Require Export Program Config.
Open Scope N_scope.
Set Implicit Arguments.

Section Guard.
  Context {T : Type} (c : cfg) (E : enumlike T).
  Local Notation B := (BITS E).
  Local Notation P := (EPB c E).

  (** n is a usize *)
  Definition usz (n : N) : bool := n <=? usize_max c.
  (** a size hint or reserve amount: a usize, and when only one element fits a block
      (P = 1), at most isize::MAX (else desired/1 + 1 may wrap around, mod.rs:138-144) *)
  Definition amount (k : N) : bool := usz k && ((2 <=? P) || (k <=? isize_max c)).
  (** the size_hint lower bound is honest *)
  Definition honest (it : iter T) : bool := amount (lower it) && (lower it <=? lenN (items it)).

  (** n elements and the rest of their last block can be counted in a usize; false only
      within one block of usize::MAX, where index arithmetic overflows (mod.rs:143, 285-322).
      Vectors that long need an allocation of 2^61 bytes on 64-bit targets, 2^29 on 32-bit ones. *)
  Definition countableb (n : N) : bool := n <=? P * (usize_max c / P).
  (** appending m elements to n: the sum is a usize, or memory cannot hold it *)
  Definition summableb (n m : N) : bool :=
    (n + m <=? usize_max c) || (alloc_max c <? (n + (P - 1)) / P + (m + (P - 1)) / P).

  (** No unused bits per block: BITS divides the block size. *)
  Definition divides : bool := W c mod B =? 0.

  (** Removing index from a vector of length n shifts no whole block (mod.rs:306). *)
  Definition local_remove (n index : N) : bool := n <=? (index / P + 1) * P + 1.

  Definition reg {A} (p : list A) (d : A) (r : nat) : A := nth r p d.

  (** [sp]: contents of the vectors; [cl]: for each vector, whether its unused bits
      are known to be zero. *)
  Definition ok_op (sp : list (list T)) (cl : list bool) (o : op T) : bool :=
    match o with
    | OWithCapacity n => usz n
    | OFromElem _ n => usz n
    | OFromSlice l => amount (lenN l)
    | OFromIter it => honest it
    | OExtend _ it => honest it
    | OReserve _ k => amount k
    | OResize _ n _ => usz n
    | OInsert r i _ => (B <? W c) && (i <=? lenN (reg sp [] r)) && countableb i
    | ORemove r i =>
        (lenN (reg sp [] r) <=? i) ||
        (((B <? W c) && reg cl true r) || local_remove (lenN (reg sp [] r)) i) && countableb (i + 1)
    | OShrink r => countableb (lenN (reg sp [] r))
    | OAppend r r2 =>
        negb (lenN (reg sp [] r) mod P =? 0) ||
        (small c || (lenN (reg sp [] r2) =? 0)) && countableb (lenN (reg sp [] r2)) &&
        summableb (lenN (reg sp [] r)) (lenN (reg sp [] r2))
    | OSplitOff r at_ => lenN (reg sp [] r) <=? at_
    | _ => true
    end.

  (** which vectors are clean after the call *)
  Definition cl_step (sp : list (list T)) (cl : list bool) (o : op T) : list bool :=
    match o with
    | ONew | OWithCapacity _ | OFromSlice _ => cl ++ [true]
    | OFromIter it => if ends_in_panic it then cl else cl ++ [true]
    | OFromElem _ n => cl ++ [(n <=? 4 * P) || divides]
    | OClone r => match nth_error cl r with Some b => cl ++ [b] | None => cl end
    | OInsert r _ _ => upd cl r divides
    | OResize r n _ => upd cl r (reg cl true r && (n <=? lenN (reg sp [] r) + 4 * P) || divides)
    | OAppend r r2 =>
        if Nat.ltb r2 (length cl) && negb (Nat.eqb r r2) && (lenN (reg sp [] r) mod P =? 0)
        then upd cl r (reg cl true r && reg cl true r2) else cl
    | OSplitOff r at_ =>
        match nth_error sp r with
        | Some l => if at_ <=? lenN l then cl ++ [true] else cl
        | None => cl
        end
    | _ => cl
    end.

  Fixpoint ok_run (sp : list (list T)) (cl : list bool) (prog : list (op T)) : bool :=
    match prog with
    | [] => true
    | o :: prog' => ok_op sp cl o && ok_run (snd (s_step (to_d E) sp o)) (cl_step sp cl o) prog'
    end.
  Definition ok_program (prog : list (op T)) : bool := ok_run [] [] prog.

  (** Memory safety only: far fewer exclusions. *)
  Definition safe_op (p : list ev) (o : op T) : bool :=
    match o with
    | OWithCapacity n => usz n
    | OFromElem _ n => usz n
    | OFromSlice l => amount (lenN l)
    | OFromIter it => amount (lower it)
    | OExtend _ it => amount (lower it)
    | OReserve _ k => amount k
    | OResize _ n _ => usz n
    | OInsert _ i _ => usz i
    | OShrink r => countableb (len (reg p (ev_new c) r))
    | OAppend r r2 =>
        negb (len (reg p (ev_new c) r) mod P =? 0) ||
        (small c || (len (reg p (ev_new c) r2) =? 0)) && countableb (len (reg p (ev_new c) r2)) &&
        summableb (len (reg p (ev_new c) r)) (len (reg p (ev_new c) r2))
    | OSplitOff r at_ => len (reg p (ev_new c) r) <=? at_
    | _ => true
    end.
  Fixpoint safe_run (p : list ev) (prog : list (op T)) : bool :=
    match prog with
    | [] => true
    | o :: prog' => safe_op p o && safe_run (snd (m_step c E p o)) prog'
    end.
  Definition safe_program (prog : list (op T)) : bool := safe_run [] prog.
End Guard.
