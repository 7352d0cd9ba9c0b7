(** Storage.v -- model of the storage accessors (same code in the six vec_*/smallvec_*
    modules; line numbers of enum_vec/src/vec_u32/mod.rs). *)
From Verif Require Export EnumVec.
Open Scope N_scope.
Set Implicit Arguments.

Section StorageAccess.
  Context {T : Type} (c : cfg) (E : enumlike T).

  (** mod.rs:700-702 [storage(&self) -> &Storage], seen as the slice of blocks. *)
  Definition storage_blocks (v : ev) : list N := data (storage v).
  (** mod.rs:730-732 [storage_mut], followed by the safe index assignment
      [s[w] = b] of Vec / SmallVec (panics out of range), as in its doc example. *)
  Definition storage_assign (w b : N) : M ev unit := store w b.
  (** mod.rs:730-732 [storage_mut], followed by [s.extend_from_slice(bs)] of Vec / SmallVec. *)
  Definition storage_extend (bs : list N) : M ev unit := on_storage (vec_extend_from c bs).
End StorageAccess.
