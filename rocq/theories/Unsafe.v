(** Unsafe.v -- clients that mix safe calls with the unsafe accessors get_raw_unchecked,
    set_raw_unchecked, set_len and storage_mut, and what they may expect.  No proofs. *)
From Verif Require Export Client Storage LayoutSpec Claims.
Open Scope N_scope.
Set Implicit Arguments.

(** A call: a safe one, or one of the unsafe accessors (mod.rs:437, 538, 558, 730).
    StorageSet r w b is v.storage_mut()[w] = b. *)
Inductive uop (T : Type) :=
| Safe (o : op T)
| RawGet (r : nat) (i : N)
| RawSet (r : nat) (i d : N)
| SetLen (r : nat) (n : N)
| StorageSet (r : nat) (w b : N).
Arguments RawGet {T} r i. Arguments RawSet {T} r i d. Arguments SetLen {T} r n. Arguments StorageSet {T} r w b.
Definition uclient (T : Type) : Type := list (res T) -> option (uop T).

(** The vectors a safe call may change (it takes them by &mut self). *)
Definition changes {T} (o : op T) : list nat :=
  match o with
  | OPush r _ | OPop r | OInsert r _ _ | ORemove r _ | OSwap r _ _ | OSwapRemove r _ | OTruncate r _ | OClear r
  | OResize r _ _ | OSet r _ _ | OReserve r _ | OShrink r | OExtend r _ | OSplitOff r _ | ORetain r _ | OForEach r _ => [r]
  | OAppend r r2 => [r; r2]
  | _ => []
  end.

Section Model.
  Context {T : Type} (c : cfg) (E : enumlike T).
  (** one call, on the model *)
  Definition m_ustep (p : list ev) (u : uop T) : mout T * list ev :=
    match u with
    | Safe o => m_step c E p o
    | RawGet r i => m_read p r (get_raw_unchecked c E i) RNum
    | RawSet r i d => m_on p r (set_raw_unchecked c E i d) (fun _ => RUnit)
    | SetLen r n => m_on p r (set_len n) (fun _ => RUnit)
    | StorageSet r w b => m_on p r (storage_assign w b) (fun _ => RUnit)
    end.
  (** the first n calls; it stops when memory runs out *)
  Fixpoint m_uplay (n : nat) (k : uclient T) (seen : list (res T)) (p : list ev) : list (mout T) :=
    match n with
    | O => []
    | S n' =>
        match k seen with
        | None => []
        | Some u =>
            match m_ustep p u with
            | (MRes x, p') => MRes x :: m_uplay n' k (seen ++ [x]) p'
            | (r, _) => [r]
            end
        end
    end.

  (** Memory safety asks only that indices and lengths stay within the blocks of storage(), and that
      numbers fit an element: they need not be numbers of a value.  storage_mut()[w] is bounds checked. *)
  Definition within (p : list ev) (r : nat) (n : N) : bool :=
    match nth_error p r with Some v => n <=? EPB c E * lenN (storage_blocks v) | None => true end.
  Definition u_safe (p : list ev) (u : uop T) : bool :=
    match u with
    | Safe o => tame_op c E o
    | RawGet r i => within p r (i + 1)
    | RawSet r i d => within p r (i + 1) && (d <? 2 ^ BITS E)
    | SetLen r n => within p r n && (n <=? usize_max c)
    | StorageSet r w b => b <? 2 ^ W c
    end.
  Fixpoint u_careful (n : nat) (k : uclient T) (seen : list (res T)) (p : list ev) : Prop :=
    match n with
    | O => True
    | S n' =>
        match k seen with
        | None => True
        | Some u => u_safe p u = true /\
            match m_ustep p u with (MRes x, p') => u_careful n' k (seen ++ [x]) p' | _ => True end
        end
    end.
End Model.

(** What the caller knows of a vector: its length, and slots, the first of which are the
    elements; for each slot the number in it, or None if it may be anything. *)
Record raw := mkRaw { rlen : N; slots : list (option N) }.

Section Spec.
  Context {T : Type} (c : cfg) (E : enumlike T).
  Local Notation P := (EPB c E).

  (** the value with number d *)
  Definition value_of (d : N) : option T :=
    match from_d E d with Some x => if to_d E x =? d then Some x else None | None => None end.
  Fixpoint values_of (l : list (option N)) : option (list T) :=
    match l with
    | [] => Some []
    | Some d :: l' =>
        match value_of d, values_of l' with Some x, Some xs => Some (x :: xs) | _, _ => None end
    | None :: _ => None
    end.
  (** the elements, if each of them is known to be a value *)
  Definition elems (u : raw) : option (list T) := values_of (firstn (N.to_nat (rlen u)) (slots u)).
  Definition sound (u : raw) : bool := match elems u with Some _ => true | None => false end.
  Definition contents (u : raw) : list T := match elems u with Some l => l | None => [] end.

  (** after a safe call the slots are the elements; reserve(k) adds k slots *)
  Definition fresh (o : op T) (l : list T) : raw :=
    mkRaw (lenN l) (map (fun x => Some (to_d E x)) l ++ match o with OReserve _ k => repeat None (N.to_nat k) | _ => [] end).
  Definition keeps (st : list raw) (o : op T) (sp' : list (list T)) : list raw :=
    map (fun j => match nth_error st j with
                  | Some u => if existsb (Nat.eqb j) (changes o) then fresh o (nth j sp' []) else u
                  | None => fresh o (nth j sp' [])
                  end) (seq 0 (length sp')).

  Definition r_on (st : list raw) (r : nat) (f : raw -> res T * raw) : res T * list raw :=
    match nth_error st r with
    | None => (RNoReg, st)
    | Some u => let '(x, u') := f u in (x, upd st r u')
    end.
  (** block w gets the bits b: B bits for each of its P slots *)
  Fixpoint poke (w b j : N) (l : list (option N)) : list (option N) :=
    match l with
    | [] => []
    | s :: l' => (if j / P =? w then Some (field (BITS E) b (j mod P)) else s) :: poke w b (j + 1) l'
    end.
  (** one call: safe calls act on the elements as on Vec (v_step), the accessors on the slots *)
  Definition u_step (st : list raw) (u : uop T) : res T * list raw :=
    match u with
    | Safe o => let '(x, sp') := v_step E (map contents st) o in (x, keeps st o sp')
    | RawGet r i => r_on st r (fun u => (match l_get (slots u) i with Some (Some d) => RNum d | _ => RNoReg end, u))
    | RawSet r i d => r_on st r (fun u => (RUnit, mkRaw (rlen u) (l_set (slots u) i (Some d))))
    | SetLen r n => r_on st r (fun u => (RUnit, mkRaw n (slots u)))
    | StorageSet r w b => r_on st r (fun u => (RUnit, mkRaw (rlen u) (poke w b 0 (slots u))))
    end.
  Fixpoint u_play (n : nat) (k : uclient T) (seen : list (res T)) (st : list raw) : list (res T) :=
    match n with
    | O => []
    | S n' =>
        match k seen with
        | None => []
        | Some u => let '(x, st') := u_step st u in x :: u_play n' k (seen ++ [x]) st'
        end
    end.

  (** The contract.  Safe calls: those of [plain_op], on vectors whose elements are all values (others
      may be half written).  get_raw_unchecked: a slot whose number is known.  set_raw_unchecked: a slot, and a
      number that fits an element.  set_len: at most the number of slots.  storage_mut()[w]: a block with a slot in it. *)
  Definition has (st : list raw) (r : nat) (f : raw -> bool) : bool :=
    match nth_error st r with Some u => f u | None => true end.
  Definition u_ok (st : list raw) (u : uop T) : bool :=
    match u with
    | Safe o => plain_op c E o && forallb (fun r => has st r sound) (regs o)
    | RawGet r i => has st r (fun u => match l_get (slots u) i with Some (Some _) => true | _ => false end)
    | RawSet r i d => has st r (fun u => (i <? lenN (slots u)) && (d <? 2 ^ BITS E))
    | SetLen r n => has st r (fun u => n <=? lenN (slots u))
    | StorageSet r w b => has st r (fun u => (w * P <? lenN (slots u)) && (b <? 2 ^ W c))
    end.
  (** the client keeps the contract during its first n calls *)
  Fixpoint obeys (n : nat) (k : uclient T) (seen : list (res T)) (st : list raw) : Prop :=
    match n with
    | O => True
    | S n' =>
        match k seen with
        | None => True
        | Some u => u_ok st u = true /\ let '(x, st') := u_step st u in obeys n' k (seen ++ [x]) st'
        end
    end.
End Spec.

(** for (j, x) in xs.enumerate() { v.set_raw_unchecked(i + j, x.to_discr()) } *)
Fixpoint write_all {T} (c : cfg) (E : enumlike T) (i : N) (xs : list T) : M ev unit :=
  match xs with
  | [] => ret tt
  | x :: xs' => set_raw_unchecked c E i (to_d E x) ;;; write_all c E (i + 1) xs'
  end.
