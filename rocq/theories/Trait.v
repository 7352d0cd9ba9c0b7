(** Trait.v -- the EnumLike trait (enum_like/src/lib.rs:135-148). *)
From Verif Require Export Machine.
Open Scope N_scope.
Set Implicit Arguments.

(** An implementation of EnumLike for T.  [from_d] returns None where the Rust
    function panics (e.g. unreachable!()).  Simplification: [to_d] is total and pure;
    enum_like's own implementations are shown to satisfy this in EnumLike.v. *)
Record enumlike (T : Type) := {
  nv : N;                    (* NUM_VARIANTS *)
  to_d : T -> N;             (* to_discr *)
  from_d : N -> option T     (* from_discr *)
}.

(** T::from_discr(x) as code *)
Definition from_discr {T} (E : enumlike T) (x : N) : outcome T :=
  match from_d E x with Some t => Ret t | None => Panic PDiscr end.

(** The documented contract (enum_like/src/lib.rs:31-35). *)
Definition lawful {T} (E : enumlike T) : Prop :=
  (forall x, to_d E x < nv E) /\
  (forall x, from_d E (to_d E x) = Some x).
