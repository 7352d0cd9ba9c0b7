(** EnumSpec.v -- specification of the numbering of EnumLike types: the list of all
    values of a type in order.  to_discr of a value is meant to be its position in
    this list.  Nothing here is computed the way the code computes it.
    For a user's type the list has all numbers, also those not used. *)
From Verif Require Export EnumLike.
Open Scope N_scope.
Set Implicit Arguments.

(** All sequences with one element of each list, the first component varying fastest. *)
Fixpoint all_seqs (Ls : list (list val)) : list (list val) :=
  match Ls with
  | [] => [[]]
  | L :: Ls' => flat_map (fun rest => map (fun x => x :: rest) L) (all_seqs Ls')
  end.

(** Unit variants in definition order ... *)
Fixpoint unit_values (k : nat) (vs : list (option (list (list val)))) : list val :=
  match vs with
  | [] => []
  | None :: vs' => VVariant k [] :: unit_values (S k) vs'
  | Some _ :: vs' => unit_values (S k) vs'
  end.
(** ... then the values of the variants with fields, in definition order. *)
Fixpoint data_values (k : nat) (vs : list (option (list (list val)))) : list val :=
  match vs with
  | [] => []
  | None :: vs' => data_values (S k) vs'
  | Some Ls :: vs' => map (VVariant k) (all_seqs Ls) ++ data_values (S k) vs'
  end.

Fixpoint enumerate (t : ty) : list val :=
  match t with
  | TUnit => [VUnit]
  | TBool => [VBool false; VBool true]
  | TOption t => map VSome (enumerate t) ++ [VNone]
  | TResult t s => map VOk (enumerate t) ++ map VErr (enumerate s)
  | TTuple ts => map VSeq (all_seqs (map enumerate ts))
  | TArray n t => map VSeq (all_seqs (repeat (enumerate t) n))
  | TStruct ts => map VSeq (all_seqs (map enumerate ts))
  | TEnum vs => let ws := map (option_map (map enumerate)) vs in unit_values 0 ws ++ data_values 0 ws
  | TUser n _ => map (fun i => VUser (N.of_nat i)) (seq 0 (N.to_nat n))
  end.

(** Every user's type in t uses all its numbers. *)
Fixpoint no_holes (t : ty) : bool :=
  match t with
  | TUnit | TBool => true
  | TOption t => no_holes t
  | TResult t s => no_holes t && no_holes s
  | TTuple ts => forallb no_holes ts
  | TArray _ t => no_holes t
  | TStruct ts => forallb no_holes ts
  | TEnum vs => forallb (fun v => match v with None => true | Some ts => forallb no_holes ts end) vs
  | TUser _ unused => match unused with [] => true | _ => false end
  end.

(** The number of values of a type (for user's types: of numbers). *)
Definition sum (l : list N) : N := fold_right N.add 0 l.
Definition product_of (l : list N) : N := fold_right N.mul 1 l.
Fixpoint count (t : ty) : N :=
  match t with
  | TUnit => 1
  | TBool => 2
  | TOption t => 1 + count t
  | TResult t s => count t + count s
  | TTuple ts => product_of (map count ts)
  | TArray n t => count t ^ N.of_nat n
  | TStruct ts => product_of (map count ts)
  | TEnum vs => sum (map (fun v => match v with None => 1 | Some ts => product_of (map count ts) end) vs)
  | TUser n _ => n
  end.

(** The types the implementations are written for: tuples and arrays of at most 32
    components, no enum variant declared with an empty list of fields (A() or A {}),
    and components that have values. *)
Fixpoint supported (t : ty) : bool :=
  match t with
  | TUnit | TBool | TUser _ _ => true
  | TOption t => supported t
  | TResult t s => supported t && supported s
  | TTuple ts => Nat.leb (length ts) 32 && forallb supported ts && forallb (fun t => 1 <=? count t) ts
  | TArray n t => Nat.leb n 32 && supported t && (1 <=? count t)
  | TStruct ts => forallb supported ts && forallb (fun t => 1 <=? count t) ts
  | TEnum vs => forallb (fun v => match v with
                                  | None => true
                                  | Some ts => Nat.ltb 0 (length ts) && forallb supported ts && forallb (fun t => 1 <=? count t) ts
                                  end) vs
  end.

(** Mixed radix: digit i counts in units of the product of the radices before it. *)
Fixpoint radix (ns ds : list N) : N :=
  match ns, ds with
  | n :: ns', d :: ds' => d + n * radix ns' ds'
  | _, _ => 0
  end.

(** The variants of an enum: which have no fields, how many values each has. *)
Definition is_unit (v : option (list ty)) : bool := match v with None => true | Some _ => false end.
Definition variant_count (v : option (list ty)) : N := match v with None => 1 | Some ts => product_of (map count ts) end.

(** The fields xs have the types ts and the numbers ds. *)
Fixpoint numbered (c : cfg) (ts : list ty) (xs : list val) (ds : list N) : Prop :=
  match ts, xs, ds with
  | [], [], [] => True
  | t :: ts', x :: xs', d :: ds' => has_ty t x = true /\ to_discr_of c t x = Ret d /\ numbered c ts' xs' ds'
  | _, _, _ => False
  end.

(** ** values(): the same calls on a list *)
Section ListCalls.
  Context {T : Type}.
  Definition l_call (k : vcall) (l : list T) : vres T * list T :=
    match k with
    | VNext => (VItem (nth_error l 0), skipn 1 l)
    | VNth n => (VItem (nth_error l (N.to_nat n)), skipn (N.to_nat n + 1) l)
    | VSizeHint => (VNum (lenN l), l)
    | VCount => (VNum (lenN l), l)
    | VLast => (VItem (nth_error (rev l) 0), l)
    end.
  Fixpoint l_calls (ks : list vcall) (l : list T) : list (vres T) :=
    match ks with
    | [] => []
    | k :: ks' => let '(r, l') := l_call k l in r :: l_calls ks' l'
    end.
  (** In no call nth(n) does the position (values consumed so far out of [total]) plus n
      exceed [m]. *)
  Fixpoint no_wrap (m total : N) (ks : list vcall) (l : list T) : Prop :=
    match ks with
    | [] => True
    | k :: ks' => (match k with VNth n => (total - lenN l) + n <= m | _ => True end) /\
                  no_wrap m total ks' (snd (l_call k l))
    end.
End ListCalls.

(** l lists all values of the type, each at the place of its number. *)
Definition lists_all {T} (E : enumlike T) (l : list T) : Prop :=
  forall d x, nth_error l (N.to_nat d) = Some x <-> to_d E x = d.
(** Every number below NUM_VARIANTS is used. *)
Definition complete {T} (E : enumlike T) : Prop :=
  forall d, d < nv E -> exists x, to_d E x = d.
