(** Client.v -- clients: programs whose next call may depend on all results seen so far, and
    conditions on calls that mention neither the state of the vectors nor the history.
    No proofs in this file. *)
From Verif Require Export Guard.
Open Scope N_scope.
Set Implicit Arguments.

(** A client picks its next call from the results so far; None: it is done. *)
Definition client (T : Type) : Type := list (res T) -> option (op T).

Section Play.
  Context {T : Type} (c : cfg) (E : enumlike T).
  (** The first n calls of the client, on the model.  It stops when memory runs out. *)
  Fixpoint m_play (n : nat) (k : client T) (seen : list (res T)) (p : list ev) : list (mout T) :=
    match n with
    | O => []
    | S n' =>
        match k seen with
        | None => []
        | Some o =>
            match m_step c E p o with
            | (MRes x, p') => MRes x :: m_play n' k (seen ++ [x]) p'
            | (r, _) => [r]
            end
        end
    end.

  (** Vec, except that insert past the end appends (enum_vec has no bounds check there; see C04). *)
  Definition v_step (p : list (list T)) (o : op T) : res T * list (list T) :=
    match o with
    | OInsert r i x => s_on p r (fun l => if i <=? lenN l then (RUnit, l_insert l i x) else (RUnit, l ++ [x]))
    | _ => s_step (to_d E) p o
    end.
  Fixpoint v_play (n : nat) (k : client T) (seen : list (res T)) (p : list (list T)) : list (res T) :=
    match n with
    | O => []
    | S n' =>
        match k seen with
        | None => []
        | Some o => let '(x, p') := v_step p o in x :: v_play n' k (seen ++ [x]) p'
        end
    end.

  (** Calls that agree with Vec in every state:
      - append only in the smallvec storage, no split_off (C09, C10);
      - insert when an element is narrower than a block and index is not within a block of usize::MAX (C04);
      - remove when moreover the element width divides the block width (C05): 1, 2, 4, 8, .. bits;
      - honest iterators (C14); amounts are usize (C26). *)
  Definition plain_op (o : op T) : bool :=
    match o with
    | OWithCapacity n => usz c n
    | OFromElem _ n => usz c n
    | OFromSlice l => amount c E (lenN l)
    | OFromIter it => honest c E it
    | OExtend _ it => honest c E it
    | OReserve _ k => amount c E k
    | OResize _ n _ => usz c n
    | OInsert _ i _ => (BITS E <? W c) && usz c (i + EPB c E)
    | ORemove _ _ => (BITS E <? W c) && divides c E
    | OAppend _ _ => small c
    | OSplitOff _ _ => false
    | _ => true
    end.
  Definition plain_client (k : client T) : Prop := forall seen o, k seen = Some o -> plain_op o = true.

  (** Calls that are memory safe in every state, whatever the element type does. *)
  Definition tame_op (o : op T) : bool :=
    match o with
    | OWithCapacity n => usz c n
    | OFromElem _ n => usz c n
    | OFromSlice l => amount c E (lenN l)
    | OFromIter it => amount c E (lower it)
    | OExtend _ it => amount c E (lower it)
    | OReserve _ k => amount c E k
    | OResize _ n _ => usz c n
    | OInsert _ i _ => usz c i
    | OAppend _ _ => small c
    | OSplitOff _ _ => false
    | _ => true
    end.
  Definition tame_client (k : client T) : Prop := forall seen o, k seen = Some o -> tame_op o = true.
End Play.

(** ** Clients that survive running out of memory *)
(** A client that catches the capacity overflow panic of a call (or calls in another thread and
    sees it die) sees None for that call and goes on. *)
Definition survivor (T : Type) : Type := list (option (res T)) -> option (op T).

Section Survive.
  Context {T : Type} (c : cfg) (E : enumlike T).
  (** The first n calls on the model.  Only an allocator abort (or undefined behaviour) ends it. *)
  Fixpoint m_survive (n : nat) (k : survivor T) (seen : list (option (res T))) (p : list ev) : list (mout T) :=
    match n with
    | O => []
    | S n' =>
        match k seen with
        | None => []
        | Some o =>
            match m_step c E p o with
            | (MRes x, p') => MRes x :: m_survive n' k (seen ++ [Some x]) p'
            | (MCap, p') => MCap :: m_survive n' k (seen ++ [None]) p'
            | (r, _) => [r]
            end
        end
    end.

  (** What a call that ran out of memory may leave behind: only calls that allocate can fail;
      extend may have appended the first few items and resize the first few copies; the
      others change nothing. *)
  Inductive leaves (sp : list (list T)) : op T -> list (list T) -> Prop :=
  | leaves_same o : (match o with
                     | OWithCapacity _ | OFromElem _ _ | OFromSlice _ | OFromIter _ | OClone _ | OPush _ _
                     | OInsert _ _ _ | OReserve _ _ | OAppend _ _ => True
                     | _ => False end) -> leaves sp o sp
  | leaves_extend r it l l1 l2 : nth_error sp r = Some l -> items it = l1 ++ l2 ->
      leaves sp (OExtend r it) (upd sp r (l ++ l1))
  | leaves_resize r n x l m : nth_error sp r = Some l -> lenN l < n -> lenN l + m <= n ->
      leaves sp (OResize r n x) (upd sp r (l ++ repeat x (N.to_nat m))).

  (** [ms] are possible observations of the client's first n calls on lists, when any
      allocating call may fail. *)
  Inductive explained (k : survivor T) : nat -> list (option (res T)) -> list (list T) -> list (mout T) -> Prop :=
  | explained_enough seen sp : explained k O seen sp []
  | explained_done n seen sp : k seen = None -> explained k (S n) seen sp []
  | explained_call n seen sp o x sp' ms : k seen = Some o -> v_step E sp o = (x, sp') ->
      explained k n (seen ++ [Some x]) sp' ms -> explained k (S n) seen sp (MRes x :: ms)
  | explained_fail n seen sp o sp' ms : k seen = Some o -> leaves sp o sp' ->
      explained k n (seen ++ [None]) sp' ms -> explained k (S n) seen sp (MCap :: ms)
  | explained_abort n seen sp : explained k (S n) seen sp [MAbort].

  Definition plain_survivor (k : survivor T) : Prop := forall seen o, k seen = Some o -> plain_op c E o = true.
  Definition tame_survivor (k : survivor T) : Prop := forall seen o, k seen = Some o -> tame_op c E o = true.
End Survive.
