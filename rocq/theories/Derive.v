(** Derive.v -- model of the procedural macro #[derive(EnumLike)],
    enum_like_derive/src/lib.rs ("derive" below), function by function: it turns a
    declaration into a stream of Rust tokens.  The second half is the part of Rust the
    emitted tokens are written in: a parser with Rust's operator precedence, and
    evaluation of the expressions in usize arithmetic.  Model only: no proofs.

    Simplifications: a path <T as ::enum_like::EnumLike>::NUM_VARIANTS and a call
    <T as ::enum_like::EnumLike>::to_discr(x) are one token each (they are closed by their own
    brackets); match arms, patterns and struct literals are kept as structure, their
    expressions as tokens; bounds and where clauses are texts; a field type is given by its EnumLike
    implementation (types mentioning a generic parameter: by its implementation after instantiation); explicit discriminants are ignored by the macro and are
    left out of declarations; idents are hygienic. *)
From Coq Require Import String.
From Verif Require Export EnumLike.
Close Scope string_scope.
Open Scope N_scope.
Set Implicit Arguments.

(** Field names: 0, 1, .. or an ident. *)
Inductive fname := FIdx (i : nat) | FName (s : string).
Definition fname_eqb (f g : fname) : bool :=
  match f, g with
  | FIdx i, FIdx j => Nat.eqb i j
  | FName s, FName t => String.eqb s t
  | _, _ => false
  end.
(** Values that to_discr is called on: self.f, or the variable x<f> bound by a pattern
    (format!("x{}", f), derive:136-139; different fields give different idents). *)
Inductive arg := ASelf (f : fname) | AVar (f : fname).

(** Rust tokens.  A: type expressions; KNv None is NUM_VARIANTS of the empty token stream (never emitted). *)
Inductive tok (A : Type) :=
| KLit (n : N)
| KValue                               (* the variable: value, or x in a guarded arm *)
| KNv (t : option A)
| KToDiscr (t : A) (x : arg)
| KPlus | KMinus | KStar | KGe | KLt | KAnd
| KOpen | KClose
| KWrappingDiv | KWrappingRem.         (* .wrapping_div and .wrapping_rem, before the parenthesis *)
Arguments KLit {A} n. Arguments KValue {A}. Arguments KPlus {A}. Arguments KMinus {A}.
Arguments KStar {A}. Arguments KGe {A}. Arguments KLt {A}. Arguments KAnd {A}. Arguments KOpen {A}.
Arguments KClose {A}. Arguments KWrappingDiv {A}. Arguments KWrappingRem {A}.

(** The declaration: syn::Fields, syn::Variant, syn::Data *)
Inductive fields (A : Type) := Unit | Unnamed (l : list A) | Named (l : list (string * A)).
Arguments Unit {A}.
Definition variant (A : Type) : Type := string * fields A.
Inductive decl (A : Type) := DStruct (f : fields A) | DEnum (vs : list (variant A)) | DUnion.

(** The generated impl.  A struct literal lists  f : <T as EnumLike>::from_discr( tokens ). *)
Definition literal (A : Type) : Type := list (fname * A * list (tok A)).
Inductive from_arm (A : Type) :=
| FromLit (n : N) (v : string)                                   (* n => Parent::v, *)
| FromGuard (guard : list (tok A)) (v : string) (l : literal A). (* x if guard => Parent::v { l }, *)
Arguments FromLit {A} n v.
Inductive from_body (A : Type) :=
| FromUnit                                                       (* S  or  S {} *)
| FromSelf (l : literal A)                                       (* Self { l } *)
| FromMatch (arms : list (from_arm A)).                          (* match value { arms, _ => unreachable!() } *)
Arguments FromUnit {A}.
Inductive to_arm (A : Type) :=
| ToLit (v : string) (n : N)                                     (* Parent::v => n, *)
| ToFields (v : string) (pat : list (fname * fname)) (e : list (tok A)). (* Parent::v { f: xg, .. } => e, *)
Arguments ToLit {A} v n.
Inductive to_body (A : Type) :=
| ToExpr (e : list (tok A))
| ToMatch (arms : list (to_arm A)).
Record impl (A : Type) := mkImpl { i_nv : list (tok A); i_from : from_body A; i_to : to_body A }.

Section Macro.
  Variable A : Type.
  Local Notation tok := (tok A).
  Local Notation toks := (list tok).

  (** derive:437-459.  The types may end with an empty token stream (None). *)
  Fixpoint nvp_rest (last_p : toks) (l : list (option A)) : list toks :=
    match l with
    | [] => []
    | t :: l' => let p := last_p ++ [KStar; KNv t] in p :: nvp_rest p l'
    end.
  Definition num_variants_product (type_names : list (option A)) : list toks :=
    let product := [[KLit 1]] in
    match type_names with
    | t0 :: _ :: _ =>
        (* if n >= 2; then for i in 2..n with type_names[i - 1] *)
        product ++ [[KNv t0]] ++ nvp_rest [KNv t0] (removelast (tl type_names))
    | _ => product
    end.
  (** derive:423-432 *)
  Definition total_num_variants_product (type_names : list A) : toks :=
    last (num_variants_product (map Some type_names ++ [None])) [].

  (** derive:463-501.  rem has an entry for all types but the last. *)
  Definition rems (type_names : list A) : list toks :=
    map (fun t => [KWrappingRem; KOpen; KNv (Some t); KClose]) (firstn (length type_names - 1) type_names) ++ [[]].
  Fixpoint zip_from (value : toks) (fs : list fname) (ts : list A) (ps rs : list toks) : literal A :=
    match fs, ts, ps, rs with
    | f :: fs', t :: ts', p :: ps', r :: rs' =>
        (f, t, [KOpen] ++ value ++ [KClose; KWrappingDiv; KOpen] ++ p ++ [KClose] ++ r) :: zip_from value fs' ts' ps' rs'
    | _, _, _, _ => []
    end.
  Definition from_discr_body (field_names : list fname) (type_names : list A) (value : toks) : literal A :=
    zip_from value field_names type_names (num_variants_product (map Some type_names)) (rems type_names).

  (** derive:504-532 *)
  Fixpoint zip_to (ps : list toks) (ts : list A) (xs : list arg) : toks :=
    match ps, ts, xs with
    | p :: ps', t :: ts', x :: xs' => [KPlus] ++ p ++ [KStar; KToDiscr t x] ++ zip_to ps' ts' xs'
    | _, _, _ => []
    end.
  Definition to_discr_body (field_names : list fname) (type_names : list A) (offset : toks)
    (xfield_names : option (list arg)) : toks :=
    let product := num_variants_product (map Some type_names) in
    match xfield_names with
    | Some xs => [KOpen] ++ offset ++ [KClose] ++ zip_to product type_names xs
    | None => [KOpen] ++ offset ++ [KClose] ++ zip_to product type_names (map ASelf field_names)
    end.

  (** derive:29-41 *)
  Record match_arm := mkArm {
    a_name : string; a_offset : N; a_data_fields : N;
    a_field_names : list fname; a_type_names : list A; a_range_high : toks }.
  (** derive:63-65 *)
  Definition unit_arm (name : string) (offset : N) : match_arm := mkArm name offset 0 [] [] [KLit 0].
  (** derive:181-188 *)
  Definition print_num_variants (m : match_arm) : toks :=
    if a_data_fields m =? 0 then [KLit 1] else total_num_variants_product (a_type_names m).
  (** derive:190-200; it is only called on arms with fields *)
  Definition print_next_range_high (m : match_arm) : toks :=
    a_range_high m ++ [KPlus] ++ print_num_variants m.
  (** derive:70-124.  fu: the fields, with their idents if the first has one. *)
  Definition field_idents (fu : fields A) : list fname * list A :=
    match fu with
    | Unit => ([], [])
    | Unnamed l => (map FIdx (seq 0 (length l)), l)
    | Named l => (map (fun p => FName (fst p)) l, map snd l)
    end.
  Definition from_fields_arm (name : string) (fu : fields A) (offset : N) (range_high : toks) : match_arm * toks :=
    let '(field_names, type_names) := field_idents fu in
    let m := mkArm name offset (lenN field_names) field_names type_names range_high in
    (m, print_next_range_high m).
  (** derive:125-156 *)
  Definition print_to_discr (m : match_arm) : to_arm A :=
    if a_data_fields m =? 0 then ToLit (a_name m) (a_offset m)
    else
      let offset := [KLit (a_offset m); KPlus] ++ a_range_high m in
      let xfield_names := map AVar (a_field_names m) in
      ToFields (a_name m) (map (fun f => (f, f)) (a_field_names m))
        (to_discr_body (a_field_names m) (a_type_names m) offset (Some xfield_names)).
  (** derive:157-179 *)
  Definition print_from_discr (m : match_arm) : from_arm A :=
    if a_data_fields m =? 0 then FromLit (a_offset m) (a_name m)
    else
      let value := [KValue; KMinus; KLit (a_offset m); KMinus; KOpen] ++ a_range_high m ++ [KClose] in
      FromGuard
        ([KValue; KGe; KOpen; KLit (a_offset m); KPlus] ++ a_range_high m ++ [KClose; KAnd] ++
         [KValue; KLt; KOpen; KLit (a_offset m); KPlus] ++ print_next_range_high m ++ [KClose])
        (a_name m) (from_discr_body (a_field_names m) (a_type_names m) value).

  (** derive:203-265.  First loop: x.len() is the number of arms pushed so far. *)
  Fixpoint unit_arms (vs : list (variant A)) (x : list match_arm) : list match_arm :=
    match vs with
    | [] => x
    | (name, Unit) :: vs' => unit_arms vs' (x ++ [unit_arm name (lenN x)])
    | _ :: vs' => unit_arms vs' x
    end.
  (** Second loop; None: an assert! in the macro fails (a variant with no fields in its list) *)
  Fixpoint data_arms (vs : list (variant A)) (offset : N) (range_high : toks) : option (list match_arm) :=
    match vs with
    | [] => Some []
    | (_, Unit) :: vs' => data_arms vs' offset range_high
    | (_, Unnamed []) :: _ => None
    | (_, Named []) :: _ => None
    | (name, fu) :: vs' =>
        let '(m, range_high') := from_fields_arm name fu offset range_high in
        option_map (cons m) (data_arms vs' offset range_high')
    end.
  Definition all_variants_of (vs : list (variant A)) : option (list match_arm) :=
    let x := unit_arms vs [] in
    let offset := lenN x in
    option_map (app x) (data_arms vs offset [KLit 0]).

  (** derive:267-309 *)
  Definition generate_rusty_enum_code (vs : list (variant A)) : option (impl A) :=
    match all_variants_of vs with
    | None => None
    | Some enum_variants => Some (mkImpl
        (flat_map (fun e => print_num_variants e ++ [KPlus]) enum_variants ++ [KLit 0])
        (FromMatch (map print_from_discr enum_variants))
        (ToMatch (map print_to_discr enum_variants)))
    end.
  (** derive:311-350.  counter: 0..variants.len() *)
  Definition counter (n : nat) : list N := map N.of_nat (seq 0 n).
  Definition generate_c_enum_code (vs : list (variant A)) : impl A :=
    mkImpl [KLit (lenN vs)]
      (FromMatch (map (fun p => FromLit (fst p) (fst (snd p))) (combine (counter (length vs)) vs)))
      (ToMatch (map (fun p => ToLit (fst (snd p)) (fst p)) (combine (counter (length vs)) vs))).
  (** derive:352-366 *)
  Definition is_unit_variant (v : variant A) : bool := match snd v with Unit => true | _ => false end.
  Definition generate_enum_code (vs : list (variant A)) : option (impl A) :=
    if forallb is_unit_variant vs then Some (generate_c_enum_code vs) else generate_rusty_enum_code vs.

  (** derive:371-392 *)
  Definition generate_unit_struct_impl : impl A := mkImpl [KLit 1] FromUnit (ToExpr [KLit 0]).
  (** derive:394-421 *)
  Definition generate_struct_many_elem (field_names : list fname) (type_names : list A) : impl A :=
    mkImpl (total_num_variants_product type_names)
      (FromSelf (from_discr_body field_names type_names [KValue]))
      (ToExpr (to_discr_body field_names type_names [KLit 0] None)).
  (** derive:534-559 (the names as in field_idents), 561-578 *)
  Definition generate_struct_code (f : fields A) : impl A :=
    match f with
    | Unit | Unnamed [] | Named [] => generate_unit_struct_impl
    | _ => let '(field_names, type_names) := field_idents f in generate_struct_many_elem field_names type_names
    end.
  (** derive:605-619.  None: the macro panics. *)
  Definition derive_enum_like (d : decl A) : option (impl A) :=
    match d with
    | DEnum vs => generate_enum_code vs
    | DStruct f => Some (generate_struct_code f)
    | DUnion _ => None
    end.
End Macro.

(** Generic parameters (syn::Generics): a lifetime, a type with its bounds and its default, or a
    constant with its type; and the predicates of the where clause.  Bounds, types and
    predicates are texts. *)
Inductive gparam :=
| PLifetime (s : string) (bounds : list string)
| PType (s : string) (bounds : list string) (default : option string)
| PConst (s : string) (type : string) (default : option string).
Record generics := mkGenerics { g_params : list gparam; g_where : list string }.
(** derive:581-588 *)
Definition add_trait_bounds (g : generics) : generics :=
  mkGenerics (map (fun p => match p with
                            | PType s bounds d => PType s (bounds ++ ["::enum_like::EnumLike"%string]) d
                            | p => p
                            end) (g_params g)) (g_where g).
(** syn's split_for_impl: the parameters with their bounds but without defaults, the names of
    the parameters, the where clause. *)
Definition gparam_name (p : gparam) : string := match p with PLifetime s _ => s | PType s _ _ => s | PConst s _ _ => s end.
Definition no_default (p : gparam) : gparam :=
  match p with PLifetime s b => PLifetime s b | PType s b _ => PType s b None | PConst s t _ => PConst s t None end.
Record header := mkHeader { h_impl_generics : list gparam; h_name : string; h_ty_generics : list string; h_where : list string }.
(** derive:592-604: unsafe impl<impl_generics> EnumLike for Name<ty_generics> where .. { body } *)
Definition impl_enum_like (name : string) (g : generics) : header :=
  let g := add_trait_bounds g in
  mkHeader (map no_default (g_params g)) name (map gparam_name (g_params g)) (g_where g).

(** ** The Rust the macro emits *)
(** Expressions. *)
Inductive binop := OAdd | OSub | OMul | OGe | OLt | OAnd.
Inductive ex (A : Type) :=
| ELit (n : N)
| EValue
| ENv (t : option A)
| EToDiscr (t : A) (x : arg)
| EBin (o : binop) (a b : ex A)
| EWrappingDiv (a b : ex A)
| EWrappingRem (a b : ex A).
Arguments ELit {A} n. Arguments EValue {A}.

Section Parse.
  Variable A : Type.
  Local Notation toks := (list (tok A)).

  (** Precedence in Rust: * binds tighter than + and -, then >= and <, then &&. *)
  Definition binop_of (t : tok A) : option binop :=
    match t with
    | KPlus => Some OAdd | KMinus => Some OSub | KStar => Some OMul
    | KGe => Some OGe | KLt => Some OLt | KAnd => Some OAnd
    | _ => None
    end.
  Definition prec (o : binop) : nat :=
    match o with OAnd => 1 | OGe | OLt => 2 | OAdd | OSub => 3 | OMul => 4 end.
  (** Operators are left associative; method calls bind tightest.  [parse f p ts] reads the
      longest expression made of operators of precedence at least p; f bounds the depth. *)
  Fixpoint parse (f : nat) (p : nat) (ts : toks) : option (ex A * toks) :=
    match f with
    | O => None
    | S f' =>
        match parse_operand f' ts with
        | Some (e, ts') => climb f' p e ts'
        | None => None
        end
    end
  with climb (f : nat) (p : nat) (lhs : ex A) (ts : toks) : option (ex A * toks) :=
    match f with
    | O => None
    | S f' =>
        match ts with
        | t :: ts' =>
            match binop_of t with
            | Some o =>
                if Nat.leb p (prec o) then
                  match parse f' (S (prec o)) ts' with
                  | Some (rhs, ts'') => climb f' p (EBin o lhs rhs) ts''
                  | None => None
                  end
                else Some (lhs, ts)
            | None => Some (lhs, ts)
            end
        | [] => Some (lhs, ts)
        end
    end
  with parse_operand (f : nat) (ts : toks) : option (ex A * toks) :=
    match f with
    | O => None
    | S f' =>
        match ts with
        | KLit n :: ts' => methods f' (ELit n) ts'
        | KValue :: ts' => methods f' EValue ts'
        | KNv t :: ts' => methods f' (ENv t) ts'
        | KToDiscr t x :: ts' => methods f' (EToDiscr t x) ts'
        | KOpen :: ts' =>
            match parse f' 0 ts' with
            | Some (e, KClose :: ts'') => methods f' e ts''
            | _ => None
            end
        | _ => None
        end
    end
  with methods (f : nat) (e : ex A) (ts : toks) : option (ex A * toks) :=
    match f with
    | O => None
    | S f' =>
        match ts with
        | KWrappingDiv :: KOpen :: ts' =>
            match parse f' 0 ts' with
            | Some (a, KClose :: ts'') => methods f' (EWrappingDiv e a) ts''
            | _ => None
            end
        | KWrappingRem :: KOpen :: ts' =>
            match parse f' 0 ts' with
            | Some (a, KClose :: ts'') => methods f' (EWrappingRem e a) ts''
            | _ => None
            end
        | _ => Some (e, ts)
        end
    end.
  (** A whole token stream as an expression. *)
  Definition parse_all (ts : toks) : option (ex A) :=
    match parse (3 * length ts + 3) 0 ts with
    | Some (e, []) => Some e
    | _ => None
    end.
End Parse.

Section Semantics.
  Variable c : cfg.
  Variable A : Type.
  Variable impl_of : A -> code.      (* the EnumLike implementations of the field types *)
  Local Notation toks := (list (tok A)).

  (** What does not compile is [ill_typed]. *)
  Inductive value := XNum (n : N) | XBool (b : bool).
  Definition to_num (x : value) : outcome N := match x with XNum n => Ret n | XBool _ => ill_typed end.
  Definition to_bool (x : value) : outcome bool := match x with XBool b => Ret b | XNum _ => ill_typed end.

  (** Evaluation in a function body: operands left to right, && short-circuits.
      [v]: the variable; [env]: the fields and the variables bound by a pattern. *)
  Fixpoint eval (v : N) (env : arg -> option val) (e : ex A) : outcome value :=
    match e with
    | ELit n => Ret (XNum n)
    | EValue => Ret (XNum v)
    | ENv (Some t) => Ret (XNum (num_variants (impl_of t)))
    | ENv None => ill_typed
    | EToDiscr t x =>
        match env x with
        | Some y => let! d := k_to (impl_of t) y in Ret (XNum d)
        | None => ill_typed
        end
    | EBin OAnd a b =>
        let! x := eval v env a in let! p := to_bool x in
        if p then let! y := eval v env b in let! q := to_bool y in Ret (XBool q) else Ret (XBool false)
    | EBin o a b =>
        let! x := eval v env a in let! m := to_num x in
        let! y := eval v env b in let! n := to_num y in
        match o with
        | OAdd => let! r := uadd c m n in Ret (XNum r)
        | OSub => let! r := usub c m n in Ret (XNum r)
        | OMul => let! r := umul c m n in Ret (XNum r)
        | OGe => Ret (XBool (n <=? m))
        | OLt => Ret (XBool (m <? n))
        | OAnd => ill_typed
        end
    | EWrappingDiv a b =>
        let! x := eval v env a in let! m := to_num x in
        let! y := eval v env b in let! n := to_num y in
        let! r := udiv m n in Ret (XNum r)
    | EWrappingRem a b =>
        let! x := eval v env a in let! m := to_num x in
        let! y := eval v env b in let! n := to_num y in
        let! r := urem m n in Ret (XNum r)
    end.
  Definition run (v : N) (env : arg -> option val) (ts : toks) : outcome value :=
    match parse_all ts with Some e => eval v env e | None => ill_typed end.
  Definition run_num v env ts : outcome N := let! x := run v env ts in to_num x.
  Definition run_bool v env ts : outcome bool := let! x := run v env ts in to_bool x.

  (** Evaluation of a constant.  None: does not compile. *)
  Fixpoint const_eval (e : ex A) : option N :=
    match e with
    | ELit n => cfit c n
    | ENv (Some t) => k_nv (impl_of t)
    | EBin OAdd a b => cadd c (const_eval a) (const_eval b)
    | EBin OMul a b => cmul c (const_eval a) (const_eval b)
    | _ => None
    end.
  Definition const_run (ts : toks) : option N :=
    match parse_all ts with Some e => const_eval e | None => None end.

  (** Position of a name in the declaration. *)
  Fixpoint index_of {K} (eqb : K -> K -> bool) (x : K) (l : list K) : option nat :=
    match l with
    | [] => None
    | y :: l' => if eqb x y then Some O else option_map S (index_of eqb x l')
    end.
  (** A struct literal: the expressions are evaluated in the order written ... *)
  Fixpoint eval_literal (v : N) (l : literal A) : outcome (list (fname * val)) :=
    match l with
    | [] => Ret []
    | (f, t, ts) :: l' =>
        let! d := run_num v (fun _ => None) ts in
        let! x := k_from (impl_of t) d in
        let! r := eval_literal v l' in
        Ret ((f, x) :: r)
    end.
  Definition assoc {V} (l : list (fname * V)) (f : fname) : option V :=
    match index_of fname_eqb f (map fst l) with Some i => nth_error (map snd l) i | None => None end.
  (** ... and the fields of the value are those of the declaration, in its order. *)
  Fixpoint gather (names : list fname) (l : list (fname * val)) : outcome (list val) :=
    match names with
    | [] => Ret []
    | f :: names' =>
        match assoc l f with
        | Some x => let! r := gather names' l in Ret (x :: r)
        | None => ill_typed
        end
    end.
  Definition names_of (f : fields A) : list fname := fst (field_idents f).

  (** A value of an enum is VVariant k xs: the k-th declared variant, its fields in order. *)
  Section Enum.
    Variable vs : list (variant A).
    Definition variant_id (name : string) : option nat := index_of String.eqb name (map fst vs).
    Fixpoint run_from_arms (x : N) (arms : list (from_arm A)) : outcome val :=
      match arms with
      | [] => Panic PDiscr                        (* _ => unreachable!() *)
      | FromLit n name :: arms' =>
          if x =? n then match variant_id name with Some k => Ret (VVariant k []) | None => ill_typed end
          else run_from_arms x arms'
      | FromGuard g name l :: arms' =>
          let! b := run_bool x (fun _ => None) g in
          if b then
            match variant_id name with
            | Some k =>
                match nth_error vs k with
                | Some (_, fu) =>
                    let! r := eval_literal x l in
                    let! xs := gather (names_of fu) r in
                    Ret (VVariant k xs)
                | None => ill_typed
                end
            | None => ill_typed
            end
          else run_from_arms x arms'
      end.
    (** the variables bound by  f: xg, ..  *)
    Definition bind_pattern (names : list fname) (pat : list (fname * fname)) (xs : list val) (a : arg) : option val :=
      match a with
      | ASelf _ => None
      | AVar g =>
          match assoc (map (fun p => (snd p, fst p)) pat) g with
          | Some f => match index_of fname_eqb f names with Some i => nth_error xs i | None => None end
          | None => None
          end
      end.
    Fixpoint run_to_arms (k : nat) (xs : list val) (arms : list (to_arm A)) : outcome N :=
      match arms with
      | [] => ill_typed
      | ToLit name n :: arms' =>
          match variant_id name with
          | Some k' => if Nat.eqb k k' then match xs with [] => Ret n | _ => ill_typed end else run_to_arms k xs arms'
          | None => ill_typed
          end
      | ToFields name pat e :: arms' =>
          match variant_id name with
          | Some k' =>
              if Nat.eqb k k' then
                match nth_error vs k with
                | Some (_, fu) => run_num 0 (bind_pattern (names_of fu) pat xs) e
                | None => ill_typed
                end
              else run_to_arms k xs arms'
          | None => ill_typed
          end
      end.
  End Enum.

  (** self.f in a struct *)
  Definition self_env (names : list fname) (xs : list val) (a : arg) : option val :=
    match a with
    | ASelf f => match index_of fname_eqb f names with Some i => nth_error xs i | None => None end
    | AVar _ => None
    end.

  (** The implementation the generated code denotes. *)
  Definition decl_variants (d : decl A) : list (variant A) := match d with DEnum vs => vs | _ => [] end.
  Definition decl_names (d : decl A) : list fname := match d with DStruct f => names_of f | _ => [] end.
  Definition impl_code (d : decl A) (g : impl A) : code := mkCode
    (const_run (i_nv g))
    (fun v =>
       match i_to g, v with
       | ToExpr e, VSeq xs => run_num 0 (self_env (decl_names d) xs) e
       | ToMatch arms, VVariant k xs => run_to_arms (decl_variants d) k xs arms
       | _, _ => ill_typed
       end)
    (fun x =>
       match i_from g with
       | FromUnit => Ret (VSeq [])
       | FromSelf l => let! r := eval_literal x l in let! xs := gather (decl_names d) r in Ret (VSeq xs)
       | FromMatch arms => run_from_arms (decl_variants d) x arms
       end).
End Semantics.
