(** Spec.v -- the behaviour of std::vec::Vec<T> and of its iterators, on plain lists.
    This file does not mention the model of enum_vec (only [lenN], the length of a
    list as an N, from Machine.v): it is what the theorems compare EnumVec with. *)
From Verif Require Import Machine.
Open Scope N_scope.
Set Implicit Arguments.

Section ListSpec.
  Context {T : Type}.

  (** l.get(i) *)
  Definition l_get (l : list T) (i : N) : option T := nth_error l (N.to_nat i).
  (** l[i] = x, for i < len *)
  Fixpoint l_set_nat (l : list T) (i : nat) (x : T) : list T :=
    match l, i with
    | [], _ => []
    | _ :: t, O => x :: t
    | h :: t, S i' => h :: l_set_nat t i' x
    end.
  Definition l_set (l : list T) (i : N) (x : T) : list T := l_set_nat l (N.to_nat i) x.
  (** l.insert(i, x), i <= len *)
  Definition l_insert (l : list T) (i : N) (x : T) : list T :=
    firstn (N.to_nat i) l ++ [x] ++ skipn (N.to_nat i) l.
  (** l.remove(i), i < len *)
  Definition l_remove (l : list T) (i : N) : list T :=
    firstn (N.to_nat i) l ++ skipn (N.to_nat i + 1) l.
  (** l.pop() *)
  Definition l_pop (l : list T) : option (T * list T) :=
    match rev l with
    | [] => None
    | x :: r => Some (x, rev r)
    end.
  (** l.swap(a, b), both < len *)
  Definition l_swap (l : list T) (a b : N) : list T :=
    match l_get l a, l_get l b with
    | Some x, Some y => l_set (l_set l a y) b x
    | _, _ => l
    end.
  (** l.swap_remove(i), i < len: the last element takes the place of element i *)
  Definition l_swap_remove (l : list T) (i : N) : list T :=
    match l_pop l with
    | None => []
    | Some (x, l') => if i =? lenN l' then l' else l_set l' i x
    end.
  (** l.truncate(n) *)
  Definition l_truncate (l : list T) (n : N) : list T := firstn (N.to_nat n) l.
  (** l.resize(n, x) *)
  Definition l_resize (l : list T) (n : N) (x : T) : list T :=
    if lenN l <? n then l ++ repeat x (N.to_nat (n - lenN l)) else firstn (N.to_nat n) l.

  (** l.retain(f) for a closure with state St; None = the closure panics.
      Result: the elements kept so far, and the final state unless it panicked. *)
  Fixpoint l_retain {St} (f : St -> T -> option (bool * St)) (st : St) (l : list T) : list T * option St :=
    match l with
    | [] => ([], Some st)
    | x :: l' =>
        match f st x with
        | None => ([], None)
        | Some (b, st') =>
            let '(k, r) := l_retain f st' l' in
            ((if b then x :: k else k), r)
        end
    end.
  (** for x in l.iter_mut() { f(x) }: the new elements, and the final state unless the
      closure panicked (then the elements processed before the panic). *)
  Fixpoint l_map {St} (f : St -> T -> option (T * St)) (st : St) (l : list T) : list T * option St :=
    match l with
    | [] => ([], Some st)
    | x :: l' =>
        match f st x with
        | None => ([], None)
        | Some (y, st') =>
            let '(k, r) := l_map f st' l' in (y :: k, r)
        end
    end.

  (** A double-ended iterator over a list: what is left. *)
  Definition q_next (l : list T) : option T * list T :=
    match l with [] => (None, []) | x :: l' => (Some x, l') end.
  Definition q_next_back (l : list T) : option T * list T :=
    match l_pop l with None => (None, []) | Some (x, l') => (Some x, l') end.
  Definition q_nth (l : list T) (n : N) : option T * list T :=
    if n <? lenN l then q_next (skipn (N.to_nat n) l) else (None, []).
End ListSpec.
