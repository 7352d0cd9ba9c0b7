(** Profile.v -- the same crate built with and without overflow checks.  Specification only: no proofs. *)
From Verif Require Export Program Client.
Open Scope N_scope.
Set Implicit Arguments.

(** the target c, compiled with overflow checks (debug) and without (release) *)
Definition profile (checks : bool) (c : cfg) : cfg :=
  {| W := W c; usize_bits := usize_bits c; ovf := checks; small := small c;
     grow := grow c; shrink := shrink c; alloc_max := alloc_max c |}.
Definition debug : cfg -> cfg := profile true.
Definition release : cfg -> cfg := profile false.

(** a value computed in debug and in release: the same, unless debug panics with an arithmetic overflow *)
Definition same_value {A} (d r : outcome A) : Prop := d = Panic POverflow \/ d = r.
(** a method: from every state the same outcome and the same state afterwards, unless debug panics with an overflow *)
Definition same_method {S A} (d r : M S A) : Prop := forall s, fst (d s) = Panic POverflow \/ d s = r s.
