(** LayoutSpec.v -- packed numbers, in plain arithmetic. *)
From Coq Require Import NArith.
Open Scope N_scope.

(** The value of the k-th group of B bits of a number. *)
Definition field (B b k : N) : N := b / 2 ^ (B * k) mod 2 ^ B.
(** B bits are the least that can number n variants. *)
Definition width_of (n B : N) : Prop := 2 ^ (B - 1) < n /\ n <= 2 ^ B.

