(** FormatSpec.v -- what the Debug output of a list of elements looks like, in plain terms.
    Specification only: no proofs. *)
From Coq Require Export List NArith String Ascii.
From Verif Require Import Format.
Export ListNotations.
Open Scope string_scope.
Set Implicit Arguments.

(** The lines of a text, each with the newline that ends it. *)
Fixpoint lines_of (s : string) : list string :=
  match s with
  | "" => []
  | String ch s' =>
      if Ascii.eqb ch nl then String ch "" :: lines_of s'
      else match lines_of s' with [] => [String ch ""] | l :: ls => String ch l :: ls end
  end.
(** Every line moved to the right by four spaces. *)
Definition indent (s : string) : string := concat "" (map (fun l => "    " ++ l) (lines_of s)).

Section Text.
  Context {T : Type} (dbg : debug_of T).
  (** the whole text of an element, and whether it was formatted without error *)
  Definition text (alt : bool) (x : T) : string := concat "" (fst (dbg alt x)).
  Definition fine (alt : bool) (x : T) : bool := snd (dbg alt x).

  (** "{:?}": [a, b, c] *)
  Definition plain (op cl : string) (l : list T) : string := op ++ concat ", " (map (text false) l) ++ cl.
  (** "{:#?}": one element per line, indented, each followed by a comma *)
  Definition pretty (op cl : string) (l : list T) : string :=
    op ++ match l with [] => "" | _ => newline ++ concat "" (map (fun x => indent (text true x ++ "," ++ newline)) l) end ++ cl.
  Definition shown (alt : bool) (op cl : string) (l : list T) : string := if alt then pretty op cl l else plain op cl l.
  (** what has been written when element x, after l, fails *)
  Definition shown_failing (alt : bool) (op : string) (l : list T) (x : T) : string :=
    if alt then op ++ newline ++ concat "" (map (fun x => indent (text true x ++ "," ++ newline)) l) ++ indent (text true x)
    else op ++ concat ", " (map (text false) l ++ [text false x]).
End Text.
