(** EnumLike.v -- model of the EnumLike implementations in enum_like/src/lib.rs and of
    the ones generated by #[derive(EnumLike)] (enum_like_derive/src/lib.rs).
    Line numbers are those of these two files, "lib.rs" and "derive".
    Model only: no proofs in this file.

    Types are the closed (monomorphic) type expressions [ty]; values are [val].
    Every implementation is a combinator on the implementations of its components,
    written with the arithmetic of the generated code. *)
From Verif Require Export Trait.
Open Scope N_scope.
Set Implicit Arguments.

(** Types implementing EnumLike.
    TTuple ts: (A0, .., An), 1 to 32 components.   TArray n t: [t; n].
    TStruct ts: a struct with #[derive(EnumLike)], fields of types ts (named or not).
    TEnum vs: an enum with #[derive(EnumLike)]; a variant is None (unit) or Some of
      its field types (tuple-like or struct-like), in definition order.
    TUser n unused: a user's own implementation with NUM_VARIANTS = n; a value is its
      number, and the numbers of the list [unused] are not to_discr of any value. *)
Inductive ty :=
| TUnit
| TBool
| TOption (t : ty)
| TResult (t s : ty)
| TTuple (ts : list ty)
| TArray (n : nat) (t : ty)
| TStruct (ts : list ty)
| TEnum (vs : list (option (list ty)))
| TUser (n : N) (unused : list N).

(** Values.  VSeq: tuples, arrays and structs.  VVariant k xs: variant number k (in
    definition order) of an enum, with fields xs. *)
Inductive val :=
| VUnit
| VBool (b : bool)
| VNone
| VSome (v : val)
| VOk (v : val)
| VErr (v : val)
| VSeq (vs : list val)
| VVariant (k : nat) (vs : list val)
| VUser (n : N).

(** An implementation: NUM_VARIANTS (None: the constant overflows usize or the macro
    rejects the type, so the program does not compile), to_discr, from_discr.
    to_discr applied to a value of another type is not Rust; the model panics with PAssert. *)
Record code := mkCode { k_nv : option N; k_to : val -> outcome N; k_from : N -> outcome val }.
Definition num_variants (k : code) : N := match k_nv k with Some n => n | None => 0 end.
Definition ill_typed {A} : outcome A := Panic PAssert.

Section Impl.
  Variable c : cfg.

  (** constant evaluation: usize arithmetic, overflow is a compile error *)
  Definition cfit (n : N) : option N := if n <=? usize_max c then Some n else None.
  Definition cadd (a b : option N) : option N :=
    match a, b with Some x, Some y => cfit (x + y) | _, _ => None end.
  Definition cmul (a b : option N) : option N :=
    match a, b with Some x, Some y => cfit (x * y) | _, _ => None end.

  (** x.wrapping_div(n), x.wrapping_rem(n) on usize: panic when n = 0 *)
  Definition udiv (x n : N) : outcome N := if n =? 0 then Panic PDiv else Ret (x / n).
  Definition urem (x n : N) : outcome N := if n =? 0 then Panic PDiv else Ret (x mod n).

  (** lib.rs:153-163 *)
  Definition unit_code : code := mkCode (Some 1)
    (fun v => match v with VUnit => Ret 0 | _ => ill_typed end)
    (fun _ => Ret VUnit).

  (** lib.rs:165-181 *)
  Definition bool_code : code := mkCode (Some 2)
    (fun v => match v with VBool b => Ret (if b then 1 else 0) | _ => ill_typed end)
    (fun x => Ret (VBool (negb (x =? 0)))).

  (** lib.rs:185-201 *)
  Definition option_code (t : code) : code := mkCode (cadd (Some 1) (k_nv t))
    (fun v => match v with
              | VNone => Ret (num_variants t)
              | VSome x => k_to t x
              | _ => ill_typed
              end)
    (fun x => if x =? num_variants t then Ret VNone
              else let! y := k_from t x in Ret (VSome y)).

  (** lib.rs:203-219 *)
  Definition result_code (t s : code) : code := mkCode (cadd (k_nv t) (k_nv s))
    (fun v => match v with
              | VOk x => k_to t x
              | VErr x => let! d := k_to s x in uadd c (num_variants t) d
              | _ => ill_typed
              end)
    (fun x => if x <? num_variants t then let! y := k_from t x in Ret (VOk y)
              else let! z := usub c x (num_variants t) in let! y := k_from s z in Ret (VErr y)).

  (** Tuples, lib.rs:221-231 (one component), 235-248 (two), 255-284 (more: (A, .., Z) is
      ((A, ..), Z)).  The recursion is on the reversed list of components. *)
  Fixpoint tuple_nv (rks : list code) : option N :=
    match rks with
    | [] => Some 1
    | [k] => k_nv k
    | k :: rks' => cmul (tuple_nv rks') (k_nv k)
    end.
  Definition tuple_num (rks : list code) : N := match tuple_nv rks with Some n => n | None => 0 end.
  Fixpoint tuple_to (rks : list code) (rvs : list val) : outcome N :=
    match rks, rvs with
    | [], [] => Ret 0
    | [k], [v] => k_to k v
    | k :: rks', v :: rvs' =>
        let! a := tuple_to rks' rvs' in
        let! b := k_to k v in
        let! m := umul c b (tuple_num rks') in
        uadd c a m
    | _, _ => ill_typed
    end.
  Fixpoint tuple_from (rks : list code) (x : N) : outcome (list val) :=
    match rks with
    | [] => Ret []
    | [k] => let! v := k_from k x in Ret [v]
    | k :: rks' =>
        let! r := urem x (tuple_num rks') in
        let! vs := tuple_from rks' r in
        let! q := udiv x (tuple_num rks') in
        let! v := k_from k q in
        Ret (v :: vs)
    end.
  (** implementations exist for at most 32 components, lib.rs:305-338, 399-433 *)
  Definition tuple_code (ks : list code) : code := mkCode
    (if Nat.leb (length ks) 32 then tuple_nv (rev ks) else None)
    (fun v => match v with VSeq vs => tuple_to (rev ks) (rev vs) | _ => ill_typed end)
    (fun x => let! rvs := tuple_from (rev ks) x in Ret (VSeq (rev rvs))).

  (** Arrays, lib.rs:342-352 (length 0), 355-388: as the tuple of their elements in order.
      Simplification: the array is read with mem::replace(.., mem::uninitialized());
      the garbage left behind is not modelled. *)
  Definition array_code (n : nat) (k : code) : code := tuple_code (repeat k n).

  (** derive:437-459 num_variants_product: entry i of the list it returns, the product
      of the first i NUM_VARIANTS (for i >= 1 without a leading 1). *)
  Fixpoint mul_all (acc : N) (l : list N) : outcome N :=
    match l with
    | [] => Ret acc
    | n :: l' => let! a := umul c acc n in mul_all a l'
    end.
  Definition product (nums : list N) (i : nat) : outcome N :=
    match firstn i nums with
    | [] => Ret 1
    | n :: l => mul_all n l
    end.
  (** derive:423-432 total_num_variants_product, as a constant *)
  Definition total_nv (ks : list code) : option N :=
    match ks with
    | [] => Some 1
    | k :: ks' => fold_left cmul (map k_nv ks') (k_nv k)
    end.

  (** derive:504-532 to_discr_body: (offset) + product_0 * f0.to_discr() + product_1 * f1.to_discr() + .. *)
  Fixpoint to_fields (nums : list N) (i : nat) (acc : N) (ks : list code) (vs : list val) : outcome N :=
    match ks, vs with
    | [], [] => Ret acc
    | k :: ks', v :: vs' =>
        let! p := product nums i in
        let! d := k_to k v in
        let! m := umul c p d in
        let! a := uadd c acc m in
        to_fields nums (S i) a ks' vs'
    | _, _ => ill_typed
    end.
  (** derive:463-501 from_discr_body: field i is from_discr((value / product_i) % NUM_i),
      without the remainder for the last field. *)
  Fixpoint from_fields (nums : list N) (i : nat) (value : N) (ks : list code) : outcome (list val) :=
    match ks with
    | [] => Ret []
    | k :: ks' =>
        let! p := product nums i in
        let! q := udiv value p in
        let! r := (match ks' with [] => Ret q | _ => urem q (num_variants k) end) in
        let! v := k_from k r in
        let! vs := from_fields nums (S i) value ks' in
        Ret (v :: vs)
    end.

  (** Structs, derive:371-392 and 541 (no fields), 394-421, 534-578 *)
  Definition struct_code (ks : list code) : code :=
    match ks with
    | [] => mkCode (Some 1)
              (fun v => match v with VSeq [] => Ret 0 | _ => ill_typed end)
              (fun _ => Ret (VSeq []))
    | _ => mkCode (total_nv ks)
              (fun v => match v with VSeq vs => to_fields (map num_variants ks) 0 0 ks vs | _ => ill_typed end)
              (fun x => let! vs := from_fields (map num_variants ks) 0 x ks in Ret (VSeq vs))
    end.

  (** Enums.  The positions of the unit variants and of the variants with data,
      derive:203-265 all_variants_of: units first, then the others in definition order. *)
  Fixpoint unit_ids (k : nat) (vs : list (option (list code))) : list nat :=
    match vs with
    | [] => []
    | None :: vs' => k :: unit_ids (S k) vs'
    | Some _ :: vs' => unit_ids (S k) vs'
    end.
  Fixpoint data_ids (k : nat) (vs : list (option (list code))) : list (nat * list code) :=
    match vs with
    | [] => []
    | None :: vs' => data_ids (S k) vs'
    | Some ks :: vs' => (k, ks) :: data_ids (S k) vs'
    end.
  Fixpoint position (k : nat) (l : list nat) : option N :=
    match l with
    | [] => None
    | x :: l' => if Nat.eqb x k then Some 0 else option_map N.succ (position k l')
    end.

  (** derive:181-188 print_num_variants of an arm; 241, 251: a variant with an empty
      list of fields is rejected by an assert! in the macro *)
  Definition arm_nv (ks : list code) : option N :=
    match ks with [] => None | _ => total_nv ks end.
  (** derive:190-200 print_next_range_high, evaluated in a function body *)
  Definition arm_num (ks : list code) : outcome N := product (map num_variants ks) (length ks).

  (** derive:311-350 c-like enums (all variants are unit) *)
  Definition c_enum_code (n : nat) : code := mkCode (cfit (N.of_nat n))
    (fun v => match v with VVariant k [] => if Nat.ltb k n then Ret (N.of_nat k) else ill_typed | _ => ill_typed end)
    (fun x => if x <? N.of_nat n then Ret (VVariant (N.to_nat x) []) else Panic PDiscr).

  (** derive:125-156 print_to_discr of the arms with data: offset + range_high + fields *)
  Fixpoint data_to (offset range_high : N) (arms : list (nat * list code)) (k : nat) (vs : list val) : outcome N :=
    match arms with
    | [] => ill_typed
    | (k', ks) :: arms' =>
        if Nat.eqb k' k then
          let! o := uadd c offset range_high in
          to_fields (map num_variants ks) 0 o ks vs
        else
          let! n := arm_num ks in
          let! rh := uadd c range_high n in
          data_to offset rh arms' k vs
    end.
  (** derive:157-179 print_from_discr of the arms with data, tried in order.
      Simplification: range_high is accumulated from arm to arm rather than evaluated
      again from the start in each (the same sums). *)
  Fixpoint data_from (offset range_high : N) (arms : list (nat * list code)) (x : N) : outcome val :=
    match arms with
    | [] => Panic PDiscr
    | (k, ks) :: arms' =>
        let! lo := uadd c offset range_high in
        let! n := arm_num ks in
        let! rh := uadd c range_high n in
        let! hi := uadd c offset rh in
        if (lo <=? x) && (x <? hi) then
          let! y := usub c x offset in
          let! z := usub c y range_high in
          let! vs := from_fields (map num_variants ks) 0 z ks in
          Ret (VVariant k vs)
        else data_from offset rh arms' x
    end.
  (** derive:267-309 generate_rusty_enum_code.  Simplification: the literal arms 0 => .., 1 => .. are a list lookup. *)
  Definition rusty_enum_code (vs : list (option (list code))) : code :=
    let units := unit_ids 0 vs in
    let data := data_ids 0 vs in
    let offset := lenN units in
    mkCode
      (cadd (fold_left cadd (map (fun a => arm_nv (snd a)) data) (cfit offset)) (Some 0))
      (fun v => match v with
                | VVariant k xs =>
                    match position k units with
                    | Some d => match xs with [] => Ret d | _ => ill_typed end
                    | None => data_to offset 0 data k xs
                    end
                | _ => ill_typed
                end)
      (fun x => match nthN units x with
                | Some k => Ret (VVariant k [])
                | None => data_from offset 0 data x
                end).
  (** derive:352-366 generate_enum_code *)
  Definition enum_code (vs : list (option (list code))) : code :=
    if forallb (fun v => match v with None => true | Some _ => false end) vs
    then c_enum_code (length vs) else rusty_enum_code vs.

  (** A user's implementation of EnumLike (lib.rs:31-35): to_discr is the number,
      from_discr panics on numbers that are not to_discr of anything. *)
  Definition user_value (n : N) (unused : list N) (x : N) : bool :=
    (x <? n) && negb (existsb (N.eqb x) unused).
  Definition user_code (n : N) (unused : list N) : code := mkCode (cfit n)
    (fun v => match v with VUser x => if user_value n unused x then Ret x else ill_typed | _ => ill_typed end)
    (fun x => if user_value n unused x then Ret (VUser x) else Panic PDiscr).

  Fixpoint code_of (t : ty) : code :=
    match t with
    | TUnit => unit_code
    | TBool => bool_code
    | TOption t => option_code (code_of t)
    | TResult t s => result_code (code_of t) (code_of s)
    | TTuple ts => tuple_code (map code_of ts)
    | TArray n t => array_code n (code_of t)
    | TStruct ts => struct_code (map code_of ts)
    | TEnum vs => enum_code (map (option_map (map code_of)) vs)
    | TUser n unused => user_code n unused
    end.
  (** T::NUM_VARIANTS, x.to_discr(), T::from_discr(x) *)
  Definition num_variants_of (t : ty) : option N := k_nv (code_of t).
  Definition to_discr_of (t : ty) (v : val) : outcome N := k_to (code_of t) v.
  Definition from_discr_of (t : ty) (x : N) : outcome val := k_from (code_of t) x.
End Impl.

(** Which values belong to which type. *)
Fixpoint typed2 (f : list (val -> bool)) (vs : list val) : bool :=
  match f, vs with
  | [], [] => true
  | g :: f', v :: vs' => g v && typed2 f' vs'
  | _, _ => false
  end.
Fixpoint has_ty (t : ty) (v : val) : bool :=
  match t, v with
  | TUnit, VUnit => true
  | TBool, VBool _ => true
  | TOption _, VNone => true
  | TOption t, VSome v => has_ty t v
  | TResult t _, VOk v => has_ty t v
  | TResult _ s, VErr v => has_ty s v
  | TTuple ts, VSeq vs => typed2 (map has_ty ts) vs
  | TArray n t, VSeq vs => Nat.eqb (length vs) n && forallb (has_ty t) vs
  | TStruct ts, VSeq vs => typed2 (map has_ty ts) vs
  | TEnum ws, VVariant k vs =>
      match nth_error (map (option_map (map has_ty)) ws) k with
      | Some None => match vs with [] => true | _ => false end
      | Some (Some fs) => typed2 fs vs
      | None => false
      end
  | TUser n unused, VUser x => user_value n unused x
  | _, _ => false
  end.

(** enum_like/src/lib.rs:580-584: Values { current, max } *)
Record values := mkValues { v_current : N; v_max : N }.
Section Values.
  Context {T : Type} (c : cfg) (E : enumlike T).
  (** lib.rs:586-594 and 562-572 *)
  Definition values_of : values := mkValues 0 (nv E).
  (** lib.rs:599-608.  from_discr runs before the update. *)
  Definition values_next : M values (option T) := fun s =>
    if v_current s <? v_max s then
      match from_discr E (v_current s) with
      | Ret x => match uadd c (v_current s) 1 with
                 | Ret n => (Ret (Some x), mkValues n (v_max s))
                 | Panic k => (Panic k, s)
                 | Abort => (Abort, s)
                 | UB => (UB, s)
                 end
      | Panic k => (Panic k, s)
      | Abort => (Abort, s)
      | UB => (UB, s)
      end
    else (Ret None, s).
  (** lib.rs:610-614, 616-620; 645: ExactSizeIterator::len is size_hint *)
  Definition values_size_hint (s : values) : outcome N := usub c (v_max s) (v_current s).
  Definition values_count (s : values) : outcome N := usub c (v_max s) (v_current s).
  (** lib.rs:622-630 *)
  Definition values_last (s : values) : outcome (option T) :=
    if (v_max s =? 0) || (v_current s =? v_max s) then Ret None
    else let! m := usub c (v_max s) 1 in fst (values_next (mkValues m (v_max s))).
  (** lib.rs:632-642 *)
  Definition values_nth (n : N) : M values (option T) := fun s =>
    match uadd c (v_current s) n with
    | Ret m =>
        if m <? v_max s then
          match uadd c (v_current s) n with
          | Ret m => values_next (mkValues m (v_max s))
          | Panic k => (Panic k, s)
          | Abort => (Abort, s)
          | UB => (UB, s)
          end
        else (Ret None, mkValues (v_max s) (v_max s))
    | Panic k => (Panic k, s)
    | Abort => (Abort, s)
    | UB => (UB, s)
    end.

  (** A call on the iterator; count and last consume a copy (Values is Copy, 579);
      collect is repeated next. *)
  Inductive vcall := VNext | VNth (n : N) | VSizeHint | VCount | VLast.
  Inductive vres := VItem (o : option T) | VNum (n : N).
  Definition v_call (k : vcall) : M values vres :=
    match k with
    | VNext => o <- values_next ;; ret (VItem o)
    | VNth n => o <- values_nth n ;; ret (VItem o)
    | VSizeHint => n <- reads values_size_hint ;; ret (VNum n)
    | VCount => n <- reads values_count ;; ret (VNum n)
    | VLast => o <- reads values_last ;; ret (VItem o)
    end.
  Fixpoint v_run (ks : list vcall) : M values (list vres) :=
    match ks with
    | [] => ret []
    | k :: ks' => r <- v_call k ;; rs <- v_run ks' ;; ret (r :: rs)
    end.

  (** PackedU8 (w = 8) and PackedU16 (w = 16), lib.rs:435-481.  A packed value is its
      discr.  CHECK_LIMIT_VARIANTS is a constant: a negative difference does not compile. *)
  Definition packed_check (w : N) : option N := if nv E <=? 2 ^ w then Some (2 ^ w - nv E) else None.
  (** lib.rs:446-452, 470-476.  None: PackedU8::<T>::new does not compile. *)
  Definition packed_new (w : N) (x : T) : option (outcome N) :=
    match packed_check w with
    | None => None
    | Some n => Some (if n <=? 2 ^ w then Ret (to_d E x mod 2 ^ w) else Panic PAssert)
    end.
  (** lib.rs:454-456, 478-480 *)
  Definition packed_get (p : N) : outcome T := from_discr E p.
  (** lib.rs:436, 460: derived PartialEq and Ord, on the field discr *)
  Definition packed_eq (p q : N) : bool := p =? q.
  Definition packed_cmp (p q : N) : comparison := p ?= q.
End Values.
Arguments vres T : clear implicits. Arguments VItem {T} o. Arguments VNum {T} n.
