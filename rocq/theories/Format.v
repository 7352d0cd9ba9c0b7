(** Format.v -- model of the Debug implementations: enum_vec/src/vec_u32/mod.rs:890-894 (same in the
    other storages) and enum_set/src/lib.rs:188-192.  They drive std's DebugList / DebugSet with
    their own iterators; those builders (core::fmt::builders, external) are modelled from their
    source: DebugInner::entry, DebugList::entries/finish and PadAdapter.
    Simplifications: the output is a String (writing to it never fails); an element's Debug may
    return Err but does not panic.  Model only: no proofs. *)
From Verif Require Export EnumVec EnumSet.
From Coq Require Export String Ascii.
Open Scope N_scope.
Open Scope string_scope.
Set Implicit Arguments.

Definition nl : ascii := ascii_of_nat 10.
Definition newline : string := String nl EmptyString.

(** A Debug implementation of the elements: the pieces it passes to write_str, in order, and
    whether it returns Ok; its argument is the formatter's `#` flag. *)
Definition debug_of (T : Type) : Type := bool -> T -> list string * bool.

(** str::split_inclusive('\n') *)
Fixpoint split_lines (s : string) : list string :=
  match s with
  | EmptyString => []
  | String ch s' =>
      if Ascii.eqb ch nl then String ch EmptyString :: split_lines s'
      else match split_lines s' with
           | [] => [String ch EmptyString]
           | l :: ls => String ch l :: ls
           end
  end.
Fixpoint ends_with_nl (s : string) : bool :=
  match s with
  | EmptyString => false
  | String ch EmptyString => Ascii.eqb ch nl
  | String _ s' => ends_with_nl s'
  end.

(** PadAdapter: on_newline and the output so far *)
Definition pad_piece (st : bool * string) (piece : string) : bool * string :=
  let '(on_newline, out) := st in
  (ends_with_nl piece, out ++ (if on_newline then "    " else "") ++ piece).
Definition pad_write (st : bool * string) (s : string) : bool * string := fold_left pad_piece (split_lines s) st.

Record builder := mkBuilder { b_out : string; b_ok : bool; b_fields : bool }.

Section Builder.
  Context {T : Type} (dbg : debug_of T) (alternate : bool).

  (** DebugInner::entry *)
  Definition entry (b : builder) (x : T) : builder :=
    if b_ok b then
      let '(pieces, ok) := dbg alternate x in
      if alternate then
        let out := b_out b ++ (if b_fields b then "" else newline) in
        let st := fold_left pad_write pieces (true, out) in
        let st' := if ok then pad_write st ("," ++ newline) else st in
        mkBuilder (snd st') ok true
      else
        let out := b_out b ++ (if b_fields b then ", " else "") in
        mkBuilder (fold_left append pieces out) ok true
    else mkBuilder (b_out b) false true.

  (** DebugList::entries: [for entry in entries { self.entry(&entry); }]; fuel as in iter_collect *)
  Fixpoint entries {St} (next : M St (option T)) (fuel : nat) (it : St) (b : builder) : outcome builder :=
    match next it with
    | (Ret None, _) => Ret b
    | (Ret (Some x), it') =>
        match fuel with
        | O => UB
        | S f => entries next f it' (entry b x)
        end
    | (Panic k, _) => Panic k
    | (Abort, _) => Abort
    | (UB, _) => UB
    end.

  (** f.debug_list() / f.debug_set() write the opening bracket, finish() the closing one. *)
  Definition start (opening : string) : builder := mkBuilder opening true false.
  Definition finish (closing : string) (b : builder) : string * bool :=
    if b_ok b then (b_out b ++ closing, true) else (b_out b, false).

  (** mod.rs:891-893: [f.debug_list().entries(self.iter()).finish()]; the text written and whether it is Ok *)
  Definition vec_fmt (c : cfg) (E : enumlike T) (v : ev) : outcome (string * bool) :=
    let r := into_iter v in
    let! b := entries (iter_next c E v) (N.to_nat (iter_size_hint r)) r (start "[") in
    Ret (finish "]" b).

  (** enum_set/src/lib.rs:189-191: [f.debug_set().entries(self.iter()).finish()] *)
  Definition set_fmt (E : enumlike T) (s : EnumSet.set) : outcome (string * bool) :=
    let! b := entries (wrap_next E) (N.to_nat (EnumSet.set_len s)) (set_iter s) (start "{") in
    Ret (finish "}" b).
End Builder.
