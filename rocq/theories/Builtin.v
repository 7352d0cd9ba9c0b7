(** Builtin.v -- the macros of enum_like/src/lib.rs that write the EnumLike implementations
    of tuples and arrays, and the memory the array conversions touch.
    Line numbers are those of that file.  Model only: no proofs in this file.

    EnumLike.v describes these implementations by one recursive function ([tuple_code],
    [array_code]); here they are what the macro calls expand to: a list of
    implementations, one per length, whose bodies select fields by index. *)
From Verif Require Export EnumLike.
Open Scope N_scope.
Set Implicit Arguments.

(** lib.rs:287-294 reverse_idx_b!, 296-303 reverse_idx_a!, 390-397 reverse_idx_c!: the
    indices [first rest..] are moved one by one to the front of [reversed]. *)
Fixpoint reverse_idx (l reversed : list nat) : list nat :=
  match l with
  | [] => reversed
  | first :: rest => reverse_idx rest (first :: reversed)
  end.

(** One implementation made by tuple_impls!, lib.rs:262-283.
    to_discr is ((self.i, ..), self.last).to_discr() with the indices [to_first], [to_last];
    from_discr is ((a.0).i, .., a.1) with the indices [from_first].
    The component types are listed in the same order in (T.., last_T) and in
    ((T..), last_T), so they are given by position. *)
Record tuple_impl := mkTupleImpl { to_first : list nat; to_last : nat; from_first : list nat }.
(** lib.rs:255-284 tuple_impls!: the first rule (two entries) makes nothing, the second
    makes an implementation and recurs.  One entry or none match no rule (not reached). *)
Fixpoint tuple_impls (l : list nat) : list tuple_impl :=
  match l with
  | [] => []
  | last_idx :: rest =>
      match rest with
      | [] => []
      | [_] => []
      | _ => mkTupleImpl (reverse_idx rest []) last_idx (reverse_idx rest []) :: tuple_impls rest
      end
  end.
(** lib.rs:305-338 *)
Definition tuple_table : list tuple_impl := tuple_impls
  [31; 30; 29; 28; 27; 26; 25; 24; 23; 22; 21; 20; 19; 18; 17; 16; 15; 14; 13; 12; 11; 10; 9; 8; 7; 6; 5; 4; 3; 2; 1; 0]%nat.

(** One implementation made by array_impls!, lib.rs:365-381: for length [arr_len], to_discr
    moves out the elements [arr_to] in this order, from_discr takes the tuple's fields
    [arr_from]. *)
Record array_impl := mkArrayImpl { arr_len : nat; arr_to : list nat; arr_from : list nat }.
(** lib.rs:355-388 array_impls! *)
Fixpoint array_impls (l : list nat) : list array_impl :=
  match l with
  | [] => []
  | n :: rest =>
      match rest with
      | [] => []
      | _ => mkArrayImpl n (map (fun idx => n - 1 - idx)%nat rest) (reverse_idx rest []) :: array_impls rest
      end
  end.
(** lib.rs:399-433 *)
Definition array_table : list array_impl := array_impls
  [32; 31; 30; 29; 28; 27; 26; 25; 24; 23; 22; 21; 20; 19; 18; 17; 16; 15; 14; 13; 12; 11; 10; 9; 8; 7; 6; 5; 4; 3; 2; 1; 0]%nat.

(** a missing implementation: the program does not compile *)
Definition no_impl : code := mkCode None (fun _ => ill_typed) (fun _ => ill_typed).

(** x.i for each i; None: there is no such field (a compile error) *)
Fixpoint select (vs : list val) (l : list nat) : option (list val) :=
  match l with
  | [] => Some []
  | i :: l' =>
      match nth_error vs i, select vs l' with
      | Some v, Some r => Some (v :: r)
      | _, _ => None
      end
  end.

Section Builtin.
  Variable c : cfg.

  (** lib.rs:221-231 *)
  Definition one_code (k : code) : code := mkCode (k_nv k)
    (fun v => match v with VSeq [x] => k_to k x | _ => ill_typed end)
    (fun x => let! v := k_from k x in Ret (VSeq [v])).
  (** lib.rs:235-248 *)
  Definition pair_code (t s : code) : code := mkCode (cmul c (k_nv t) (k_nv s))
    (fun v => match v with
              | VSeq [a; b] =>
                  let! x := k_to t a in
                  let! y := k_to s b in
                  let! m := umul c y (num_variants t) in
                  uadd c x m
              | _ => ill_typed
              end)
    (fun x =>
       let! r := urem x (num_variants t) in
       let! a := k_from t r in
       let! q := udiv x (num_variants t) in
       let! b := k_from s q in
       Ret (VSeq [a; b])).
  (** The implementation for tuples of n components: lengths 1 and 2 are written by hand,
      longer ones are looked up among the generated ones.  Zero components: lib.rs:153-163. *)
  Fixpoint tuple_of (n : nat) (ks : list code) : code :=
    match n with
    | O => mkCode (Some 1) (fun v => match v with VSeq [] => Ret 0 | _ => ill_typed end) (fun _ => Ret (VSeq []))
    | S n' =>
        match ks with
        | [k] => one_code k
        | [k1; k2] => pair_code k1 k2
        | _ =>
            match find (fun i => Nat.eqb (S (length (to_first i))) n) tuple_table, nth_error ks n' with
            | Some i, Some k =>
                let inner := pair_code (tuple_of n' (firstn n' ks)) k in
                mkCode (k_nv inner)
                  (fun v => match v with
                            | VSeq vs =>
                                if Nat.eqb (length vs) n then
                                  match select vs (to_first i), nth_error vs (to_last i) with
                                  | Some xs, Some y => k_to inner (VSeq [VSeq xs; y])
                                  | _, _ => ill_typed
                                  end
                                else ill_typed
                            | _ => ill_typed
                            end)
                  (fun x =>
                     let! p := k_from inner x in
                     match p with
                     | VSeq [VSeq a; b] =>
                         match select a (from_first i) with
                         | Some xs => Ret (VSeq (xs ++ [b]))
                         | None => ill_typed
                         end
                     | _ => ill_typed
                     end)
            | _, _ => no_impl
            end
        end
    end.
  Definition tuple_macro (ks : list code) : code := tuple_of (length ks) ks.

  (** The memory of an array: an element or mem::uninitialized(). *)
  Inductive cell := Live (v : val) | Dead.
  Definition is_dead (x : cell) : bool := match x with Dead => true | Live _ => false end.
  Fixpoint set_dead (i : nat) (m : list cell) : list cell :=
    match m, i with
    | [], _ => []
    | _ :: m', O => Dead :: m'
    | x :: m', S i' => x :: set_dead i' m'
    end.
  (** mem::replace(&mut self[i], mem::uninitialized()), lib.rs:372: a value that was not
      initialised may not be used (it would be given to to_discr). *)
  Definition take (i : nat) (m : list cell) : outcome val * list cell :=
    match nth_error m i with
    | Some (Live v) => (Ret v, set_dead i m)
    | Some Dead => (UB, m)
    | None => (Panic PIndex, m)
    end.
  (** the tuple's fields, evaluated left to right *)
  Fixpoint take_all (l : list nat) (m : list cell) : outcome (list val) * list cell :=
    match l with
    | [] => (Ret [], m)
    | i :: l' =>
        match take i m with
        | (Ret v, m1) =>
            let (r, m2) := take_all l' m1 in ((let! vs := r in Ret (v :: vs)), m2)
        | (Panic k, m1) => (Panic k, m1)
        | (Abort, m1) => (Abort, m1)
        | (UB, m1) => (UB, m1)
        end
    end.
  (** Leaving the function, by return or by unwinding, drops [self]: where the element
      type has drop glue, dropping an element that is not initialised is undefined
      behaviour.  (Nothing here allocates, so the process does not abort.)
      Simplification: the rules of the time, under which mem::uninitialized() itself is
      harmless; by today's it is undefined behaviour already for bool. *)
  Definition drop_array {A} (glue : bool) (m : list cell) (r : outcome A) : outcome A :=
    if glue && existsb is_dead m then UB else r.
  (** lib.rs:342-352 (length 0), 365-381.  [glue]: the element type needs to be dropped. *)
  Definition array_macro (glue : bool) (n : nat) (k : code) : code :=
    match n with
    | O => mkCode (Some 1) (fun v => match v with VSeq [] => Ret 0 | _ => ill_typed end) (fun _ => Ret (VSeq []))
    | _ =>
        match find (fun i => Nat.eqb (arr_len i) n) array_table with
        | Some i =>
            let tuple := tuple_macro (repeat k n) in
            mkCode (k_nv tuple)
              (fun v => match v with
                        | VSeq vs =>
                            if Nat.eqb (length vs) n then
                              let (r, m) := take_all (arr_to i) (map Live vs) in
                              drop_array glue m (let! xs := r in k_to tuple (VSeq xs))
                            else ill_typed
                        | _ => ill_typed
                        end)
              (fun x =>
                 let! t := k_from tuple x in
                 match t with
                 | VSeq vs => match select vs (arr_from i) with Some xs => Ret (VSeq xs) | None => ill_typed end
                 | _ => ill_typed
                 end)
        | None => no_impl
        end
    end.

  (** Types that need to be dropped: [impl_drop t] tells for structs, enums and the
      user's own types whether they implement Drop. *)
  Variable impl_drop : ty -> bool.
  Fixpoint needs_drop (t : ty) : bool :=
    match t with
    | TUnit => false
    | TBool => false
    | TOption t => needs_drop t
    | TResult t s => needs_drop t || needs_drop s
    | TTuple ts => existsb needs_drop ts
    | TArray n t => negb (Nat.eqb n 0) && needs_drop t
    | TStruct ts => impl_drop t || existsb needs_drop ts
    | TEnum vs => impl_drop t || existsb (fun v => match v with Some ts => existsb needs_drop ts | None => false end) vs
    | TUser _ _ => impl_drop t
    end.

  (** [code_of] of EnumLike.v with these implementations of tuples and arrays *)
  Fixpoint macro_code (t : ty) : code :=
    match t with
    | TUnit => unit_code
    | TBool => bool_code
    | TOption t => option_code c (macro_code t)
    | TResult t s => result_code c (macro_code t) (macro_code s)
    | TTuple ts => tuple_macro (map macro_code ts)
    | TArray n t => array_macro (needs_drop t) n (macro_code t)
    | TStruct ts => struct_code c (map macro_code ts)
    | TEnum vs => enum_code c (map (option_map (map macro_code)) vs)
    | TUser n unused => user_code c n unused
    end.

  (** Vocabulary for the theorems: no array of elements that need to be dropped, except
      of length 0. *)
  Fixpoint moves_only (t : ty) : bool :=
    match t with
    | TUnit => true
    | TBool => true
    | TOption t => moves_only t
    | TResult t s => moves_only t && moves_only s
    | TTuple ts => forallb moves_only ts
    | TArray n t => Nat.eqb n 0 || (negb (needs_drop t) && moves_only t)
    | TStruct ts => forallb moves_only ts
    | TEnum vs => forallb (fun v => match v with Some ts => forallb moves_only ts | None => true end) vs
    | TUser _ _ => true
    end.
End Builtin.
