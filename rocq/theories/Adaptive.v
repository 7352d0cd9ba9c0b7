(** Adaptive.v -- clients that choose each call from the answers so far, with the conditions of Guard.v
    checked call by call along the run; no limit on memory is assumed (compare plain_client in Client.v).
    No proofs in this file. *)
From Verif Require Export Client Inline.
Open Scope N_scope.
Set Implicit Arguments.

Section Adaptive.
  Context {T : Type} (c : cfg) (E : enumlike T).
  (** The first n calls on lists: Vec itself, insert past the end included. *)
  Fixpoint s_play (n : nat) (k : client T) (seen : list (res T)) (p : list (list T)) : list (res T) :=
    match n with
    | O => []
    | S n' =>
        match k seen with
        | None => []
        | Some o => let '(x, p') := s_step (to_d E) p o in x :: s_play n' k (seen ++ [x]) p'
        end
    end.
  (** The first n calls the client makes when answered by lists meet the conditions of Guard.v. *)
  Fixpoint ok_client (n : nat) (k : client T) (seen : list (res T)) (sp : list (list T)) (cl : list bool) : bool :=
    match n with
    | O => true
    | S n' =>
        match k seen with
        | None => true
        | Some o => ok_op c E sp cl o &&
            (let '(x, sp') := s_step (to_d E) sp o in ok_client n' k (seen ++ [x]) sp' (cl_step c E sp cl o))
        end
    end.
  (** The calls it makes of the model meet those for memory safety. *)
  Fixpoint safe_client (n : nat) (k : client T) (seen : list (res T)) (p : list ev) : bool :=
    match n with
    | O => true
    | S n' =>
        match k seen with
        | None => true
        | Some o => safe_op c E p o &&
            match m_step c E p o with
            | (MRes x, p') => safe_client n' k (seen ++ [x]) p'
            | _ => true
            end
        end
    end.
  (** The most blocks that any of them asks for (Memory.v). *)
  Fixpoint client_demands (n : nat) (k : client T) (seen : list (res T)) (sp : list (list T)) : N :=
    match n with
    | O => 0
    | S n' =>
        match k seen with
        | None => 0
        | Some o => N.max (demand c E (map lenN sp) o) (let '(x, sp') := s_step (to_d E) sp o in client_demands n' k (seen ++ [x]) sp')
        end
    end.
  (** A SmallEnumVec serves all of them from its inline buffer (Inline.v). *)
  Fixpoint client_inline (n : nat) (k : client T) (seen : list (res T)) (sp : list (list T)) : bool :=
    match n with
    | O => true
    | S n' =>
        match k seen with
        | None => true
        | Some o => fits_inline E (map lenN sp) o && (let '(x, sp') := s_step (to_d E) sp o in client_inline n' k (seen ++ [x]) sp')
        end
    end.
End Adaptive.
