(** DeriveSpec.v -- what a declaration means, independently of the macro: the types of its
    fields in order, the names it uses, and which declarations the macro is documented to
    accept.  Nothing here is computed by the macro's code. *)
From Coq Require Import String.
From Verif Require Export Derive EnumSpec.
From Coq Require Import List.
Close Scope string_scope.
Open Scope N_scope.
Set Implicit Arguments.
Unset Strict Implicit.

(** The types of the fields; None for  struct S;  and for a variant  V,  . *)
Definition types_of {A} (f : fields A) : option (list A) :=
  match f with
  | Unit => None
  | Unnamed l => Some l
  | Named l => Some (map snd l)
  end.
Definition field_types {A} (f : fields A) : list A := match types_of f with Some ts => ts | None => [] end.

(** Names are distinct, as Rust demands. *)
Definition named_ok {A} (f : fields A) : Prop := match f with Named l => NoDup (map fst l) | _ => True end.
Definition well_named {A} (d : decl A) : Prop :=
  match d with
  | DStruct f => named_ok f
  | DEnum vs => NoDup (map fst vs) /\ Forall (fun v : variant A => named_ok (snd v)) vs
  | DUnion _ => True
  end.

(** Structs and enums, without variants of the form  V()  or  V {} . *)
Definition accepted {A} (d : decl A) : Prop :=
  match d with
  | DStruct _ => True
  | DEnum vs => Forall (fun v : variant A => types_of (snd v) <> Some []) vs
  | DUnion _ => False
  end.

(** The type declared, by the order and the types of its fields and variants only. *)
Definition declared (d : decl ty) : ty :=
  match d with
  | DStruct f => TStruct (field_types f)
  | DEnum vs => TEnum (map (fun v : variant ty => types_of (snd v)) vs)
  | DUnion _ => TUnit
  end.

(** A generic declaration is a declaration over type expressions that mention parameters;
    [map_decl f d] puts the type [f a] for every type expression [a] in it. *)
Definition map_fields {A B} (f : A -> B) (x : fields A) : fields B :=
  match x with
  | Unit => Unit
  | Unnamed l => Unnamed (map f l)
  | Named l => Named (map (fun p => (fst p, f (snd p))) l)
  end.
Definition map_decl {A B} (f : A -> B) (d : decl A) : decl B :=
  match d with
  | DStruct x => DStruct (map_fields f x)
  | DEnum vs => DEnum (map (fun v : variant A => (fst v, map_fields f (snd v))) vs)
  | DUnion _ => DUnion B
  end.
