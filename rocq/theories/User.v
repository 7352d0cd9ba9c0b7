(** User.v -- the calls of enum_vec/src/vec_u32/mod.rs that run code of the user: EnumLike's to_discr
    and from_discr (safe trait methods), Clone, closures, iterators, a Hasher.  In EnumVec.v that code
    is a total function; here it is arbitrary safe Rust: it may keep state, panic, give a
    different answer each time, end the process or not end at all.  The functions below are
    those of EnumVec.v with the user's code called where mod.rs calls it; everything else
    is the code of EnumVec.v.  PropUser.v shows that with pure code they are the functions of EnumVec.v.
    Line numbers: enum_vec/src/vec_u32/mod.rs.  Model only: no proofs in this file. *)
From Verif Require Export Client.
Open Scope N_scope.
Set Implicit Arguments.

(** The user's code for element type T; U is all the state it can reach (statics, Cells, captured
    variables, files).  It cannot reach a vector that is being modified (borrow rules). *)
Record usercode (U T : Type) := mkUser {
  u_nv : N;                  (* NUM_VARIANTS, a constant *)
  u_to : T -> M U N;         (* to_discr *)
  u_from : N -> M U T;       (* from_discr *)
  u_clone : T -> M U T       (* Clone::clone: EnumLike requires Copy, but Clone may be written by hand *)
}.

Section User.
  Context {U T : Type} (c : cfg) (X : usercode U T).

  (** what the code of mod.rs that calls no user code needs of T: NUM_VARIANTS *)
  Definition shape : enumlike T := {| nv := u_nv X; to_d := fun _ => 0; from_d := fun _ => None |}.
  Local Notation EPB := (EPB c shape).
  Local Notation MW := (M (ev * U)).
  Definition user {A} (m : M U A) : MW A := on_snd m.
  Definition self {A} (m : M ev A) : MW A := on_fst m.
  Definition self_get {A} (f : ev -> outcome A) : MW A := reads (fun s => f (fst s)).

  (** mod.rs:108-111 *)
  Definition w_get (i : N) : MW (option T) :=
    r <- self_get (get_raw c shape i) ;;
    match r with
    | None => ret None
    | Some d => x <- user (u_from X d) ;; ret (Some x)
    end.
  (** get(i).unwrap() *)
  Definition w_elem (i : N) : MW T := r <- w_get i ;; lift (unwrap r).
  (** mod.rs:112-114: to_discr runs before the bounds check *)
  Definition w_set (i : N) (x : T) : MW unit :=
    d <- user (u_to X x) ;; self (set_raw c shape i d).
  (** mod.rs:352-359: the length is incremented before set calls to_discr *)
  Definition w_push (x : T) : MW unit :=
    self (grow_if_needed c shape) ;;;
    idx <- self_get (fun v => Ret (num v)) ;;
    n1 <- lift (if idx + 1 <=? usize_max c then Ret (idx + 1) else Panic PExpect) ;;
    self (set_len n1) ;;;
    w_set idx x.
  (** mod.rs:360-369 *)
  Definition w_pop : MW (option T) := fun s =>
    if is_empty (fst s) then (Ret None, s)
    else
      (i <- self_get (fun v => usub c (num v) 1) ;;
       x <- w_elem i ;;
       n1 <- self_get (fun v => usub c (num v) 1) ;;
       self (set_len n1) ;;;
       ret (Some x)) s.
  (** mod.rs:173-178 *)
  Definition w_swap_remove (index : N) : MW T :=
    last <- self_get (fun v => usub c (len v) 1) ;;
    self (swap c shape index last) ;;;
    r <- w_pop ;;
    lift (unwrap r).
  (** mod.rs:207-249; to_discr runs in push, and again at mod.rs:223 *)
  Definition w_insert (index : N) (element : T) : MW unit :=
    w_push element ;;;
    prev <- user (u_to X element) ;;
    self (
      self_len <- reads (fun v => Ret (len v)) ;;
      r <- (if 0 <? index mod EPB then
              l0 <- lift (usub c index (index mod EPB)) ;;
              l1 <- lift (uadd c l0 EPB) ;;
              insert_slow c shape (N.to_nat (N.min l1 self_len - index)) index prev
            else ret (index, prev)) ;;
      self_len <- reads (fun v => Ret (len v)) ;;
      if fst r <? self_len then
        l <- lift (usub c self_len 1) ;;
        insert_blocks c shape (N.to_nat (fst (block_index c shape l) + 1 - fst (block_index c shape (fst r))))
          (fst (block_index c shape (fst r))) (cast_block c (snd r))
      else ret tt).
  (** mod.rs:272-313: from_discr runs first, then the elements are moved *)
  Definition w_remove (index : N) : MW T :=
    x <- w_elem index ;;
    self (
      length <- reads (fun v => usub c (len v) 1) ;;
      block_limit <- lift (umul c (1 + fst (block_index c shape index)) EPB) ;;
      i <- remove_slow c shape (N.to_nat (N.min length block_limit - index)) index ;;
      last <- reads (fun v => usub c (len v) 1) ;;
      prev <- reads (get_raw_unchecked c shape last) ;;
      n1 <- reads (fun v => usub c (num v) 1) ;;
      set_len n1 ;;;
      self_len <- reads (fun v => Ret (len v)) ;;
      if i <? self_len then
        l <- lift (usub c self_len 1) ;;
        remove_blocks c shape (N.to_nat (fst (block_index c shape l) + 1 - fst (block_index c shape i)))
          (fst (block_index c shape i)) (cast_block c prev)
      else ret tt) ;;;
    ret x.
  (** mod.rs:332-339 *)
  Fixpoint w_retain_loop (f : T -> M U bool) (n : nat) (i_get i_set : N) : MW N :=
    match n with
    | O => ret i_set
    | S n' =>
        x <- w_elem i_get ;;
        b <- user (f x) ;;
        if b : bool then w_set i_set x ;;; w_retain_loop f n' (i_get + 1) (i_set + 1)
        else w_retain_loop f n' (i_get + 1) i_set
    end.
  (** mod.rs:324-344 *)
  Definition w_retain (f : T -> M U bool) : MW unit :=
    l <- self_get (fun v => Ret (len v)) ;;
    n <- w_retain_loop f (N.to_nat l) 0 0 ;;
    self (set_len n).
  (** mod.rs:638-649 *)
  Fixpoint w_for_each_loop (f : T -> M U T) (n : nat) (i : N) : MW unit :=
    match n with
    | O => ret tt
    | S n' =>
        x <- w_elem i ;;
        y <- user (f x) ;;
        w_set i y ;;;
        w_for_each_loop f n' (i + 1)
    end.
  Definition w_for_each (f : T -> M U T) : MW unit :=
    l <- self_get (fun v => Ret (len v)) ;;
    w_for_each_loop f (N.to_nat l) 0.

  (** An iterator of the user: [hint] is into_iter() and size_hint().0, [next] takes and returns
      the iterator's own state.  It need not end. *)
  Section Extend.
    Context {I : Type} (next : I -> M U (option T * I)).
    (** mod.rs:914-916 *)
    Fixpoint w_known (n : nat) (i self_len : N) (it : I) : MW I :=
      match n with
      | O => ret it
      | S n' =>
          idx <- lift (uadd c self_len i) ;;
          r <- user (next it) ;;
          x <- lift (unwrap (fst r)) ;;
          w_set idx x ;;;
          w_known n' (i + 1) self_len (snd r)
      end.
    (** mod.rs:919-921.  The loop runs until next returns None.  [fuel] bounds the number of rounds
        looked at; beyond it the call is still running (Abort: nothing is said of what follows). *)
    Fixpoint w_rest (fuel : nat) (it : I) : MW unit :=
      match fuel with
      | O => lift Abort
      | S fuel' =>
          r <- user (next it) ;;
          match fst r with
          | None => ret tt
          | Some x => w_push x ;;; w_rest fuel' (snd r)
          end
      end.
    (** mod.rs:907-922 *)
    Definition w_extend (fuel : nat) (hint : M U N) (it : I) : MW unit :=
      iter_len <- user hint ;;
      self_len <- self_get (fun v => Ret (len v)) ;;
      self (reserve c shape iter_len) ;;;
      n <- self_get (fun v => uadd c (num v) iter_len) ;;
      self (set_len n) ;;;
      it' <- w_known (N.to_nat iter_len) 0 self_len it ;;
      w_rest fuel it'.
  End Extend.

  (** repeat(value).take(n): clones value for each item (std, external: documented behaviour) *)
  Definition take_next (value : T) (n : N) : M U (option T * N) :=
    if n =? 0 then ret (None, 0) else x <- u_clone X value ;; ret (Some x, n - 1).
  Definition w_repeat (value : T) (n : N) : MW unit := w_extend (take_next value) 1 (ret n) n.
  (** slice.iter().cloned(): clones each element (std) *)
  Definition cloned_next (l : list T) : M U (option T * list T) :=
    match l with [] => ret (None, []) | x :: l' => y <- u_clone X x ;; ret (Some y, l') end.
  (** Vec's into_iter: moves the elements out (std) *)
  Definition vec_next (l : list T) : M U (option T * list T) :=
    match l with [] => ret (None, []) | x :: l' => ret (Some x, l') end.

  (** mod.rs:480-525 *)
  Definition w_extend_with_value (value : T) (count : N) : MW unit :=
    if count <=? 4 * EPB then w_repeat value count
    else
      self_len <- self_get (fun v => Ret (len v)) ;;
      let to_insert_first := EPB - self_len mod EPB in
      w_repeat value to_insert_first ;;;
      count_end <- lift (usub c count to_insert_first) ;;
      let count_blocks := count_end / EPB in
      to_insert_mid <- lift (umul c count_blocks EPB) ;;
      s <- lift (uadd c to_insert_first to_insert_mid) ;;
      to_insert_last <- lift (usub c count s) ;;
      d <- user (u_to X value) ;;
      self (
        block_value <- lift (fill_pattern c 9 (cast_block c d) (BITS shape)) ;;
        old_len <- reads (fun v => Ret (len v)) ;;
        fix_storage c shape ;;;
        on_storage (vec_reserve c (count_blocks + (if 0 <? to_insert_last then 1 else 0))) ;;;
        fill_blocks c count_blocks block_value ;;;
        mid <- lift (umul c count_blocks EPB) ;;
        n <- lift (uadd c old_len mid) ;;
        set_len n) ;;;
      w_repeat value to_insert_last.
  (** mod.rs:461-470 *)
  Definition w_resize (new_len : N) (value : T) : MW unit :=
    l <- self_get (fun v => Ret (len v)) ;;
    if l <? new_len then
      d <- lift (usub c new_len l) ;;
      w_extend_with_value value d
    else self (truncate new_len).

  (** mod.rs:764-816: any *)
  Definition w_any (x : T) : MW bool := fun s =>
    let v := fst s in
    if is_empty v then (Ret false, s)
    else
      let '(last_block, last_elem_shift) := block_index c shape (len v) in
      (one <- lift (one_mask c shape) ;;
       high <- lift (shl c one (BITS shape - 1)) ;;
       d <- user (u_to X x) ;;
       lift (
         let! xm := bmul c (cast_block c d) one in
         let! found := any_loop c (N.to_nat last_block) 0 one high xm v in
         if found : bool then Ret true
         else if negb (last_elem_shift =? 0) then
           let! last_block_mask := shl c (bones c) last_elem_shift in
           let! b := load last_block v in
           Ret (haszero c one high (N.lor (N.lxor b xm) last_block_mask))
         else Ret false)) s.
  (** mod.rs:845-885: all *)
  Definition w_all (x : T) : MW bool := fun s =>
    let v := fst s in
    if is_empty v then (Ret true, s)
    else
      let '(last_block, last_elem_shift) := block_index c shape (len v) in
      (valid <- lift (shr c (bones c) (W c mod BITS shape)) ;;
       one <- lift (one_mask c shape) ;;
       d <- user (u_to X x) ;;
       lift (
         let! xm := bmul c (cast_block c d) one in
         let! ok := all_loop (N.to_nat last_block) 0 valid xm v in
         if negb ok then Ret false
         else if negb (last_elem_shift =? 0) then
           let! m := shl c (bones c) last_elem_shift in
           let! b := load last_block v in
           Ret (N.land b (bnot c m) =? N.land xm (bnot c m))
         else Ret true)) s.
  (** [for x in v.iter() { f(x) }]: mod.rs:1014-1016; f is what the loop does with the item:
      Vec::push in to_vec (mod.rs:661-666, 944-948), the item's fmt in Debug (890-894), the loop body of a caller.
      The items are also returned. *)
  Fixpoint w_visit (f : T -> M U unit) (n : nat) (i : N) : MW (list T) :=
    match n with
    | O => ret []
    | S n' =>
        x <- w_elem i ;;
        user (f x) ;;;
        l <- w_visit f n' (i + 1) ;;
        ret (x :: l)
    end.
  Definition w_each (f : T -> M U unit) : MW (list T) :=
    l <- self_get (fun v => Ret (len v)) ;; w_visit f (N.to_nat l) 0.
  Definition w_to_vec : MW (list T) := w_each (fun _ => ret tt).
  (** iterator calls: mod.rs:1014-1034, 1055-1075 *)
  Definition w_item (o : option N) : MW (option T) :=
    match o with None => ret None | Some i => x <- w_elem i ;; ret (Some x) end.
  Fixpoint w_iter (r : range) (calls : list icall) : MW (list (ires T)) :=
    match calls with
    | [] => ret []
    | ca :: calls' =>
        let '(m, r') :=
          match ca with
          | INext => let '(o, r') := range_next r in (x <- w_item o ;; ret (JItem x), r')
          | INextBack => let '(o, r') := range_next_back r in (x <- w_item o ;; ret (JItem x), r')
          | INth n => let '(o, r') := range_nth n r in (x <- w_item o ;; ret (JItem x), r')
          | ISizeHint => (ret (JNum (iter_size_hint r)), r)
          | ICount => (ret (JNum (iter_count r)), mkRange (r_end r) (r_end r))
          end in
        x <- m ;;
        l <- w_iter r' calls' ;;
        ret (x :: l)
    end.
  (** mod.rs:1115-1121; [h] is the Hasher's write_usize *)
  Fixpoint w_hash_loop (h : N -> M U unit) (n : nat) (i : N) : MW unit :=
    match n with
    | O => ret tt
    | S n' =>
        d <- self_get (get_raw_unchecked c shape i) ;;
        user (h d) ;;;
        w_hash_loop h n' (i + 1)
    end.
  Definition w_hash (h : N -> M U unit) : MW unit :=
    l <- self_get (fun v => Ret (len v)) ;; w_hash_loop h (N.to_nat l) 0.

  (** A constructor: mod.rs:668-674 from_elem, 685-691 from_slice, 925-932 from_iter, 938-942 From<Vec>.
      The new vector is dropped if the body panics; the user's state is what it is. *)
  Definition w_build {A} (m : MW A) : M U ev := fun u =>
    match m (ev_new c, u) with
    | (Ret _, s) => (Ret (fst s), snd s)
    | (Panic k, s) => (Panic k, snd s)
    | (Abort, s) => (Abort, snd s)
    | (UB, s) => (UB, snd s)
    end.

  (** *** Calls *)
  Inductive wop :=
  | WPlain (o : op T)                              (* a call that runs no user code *)
  | WPush (r : nat) (x : T) | WPop (r : nat) | WInsert (r : nat) (i : N) (x : T) | WRemove (r : nat) (i : N)
  | WSwapRemove (r : nat) (i : N) | WResize (r : nat) (n : N) (x : T) | WRead (r : nat) (i : N) | WSet (r : nat) (i : N) (x : T)
  | WExtend (r : nat) (fuel : nat) (hint : M U N) (next : M U (option T))
  | WRetain (r : nat) (f : T -> M U bool) | WForEach (r : nat) (f : T -> M U T)
  | WAny (r : nat) (x : T) | WAll (r : nat) (x : T) | WEach (r : nat) (f : T -> M U unit)
  | WIter (r : nat) (calls : list icall) | WHash (r : nat) (h : N -> M U unit)
  | WFromElem (x : T) (n : N) | WFromSlice (l : list T) | WFromVec (l : list T)
  | WFromIter (fuel : nat) (hint : M U N) (next : M U (option T)).

  (** the calls that run no user code *)
  Definition silent (o : op T) : bool :=
    match o with
    | ONew | OWithCapacity _ | OClone _ | OSwap _ _ _ | OTruncate _ _ | OClear _ | OReserve _ _ | OShrink _
    | OAppend _ _ | OSplitOff _ _ | OEq _ _ | OLen _ | OIsEmpty _ => true
    | _ => false
    end.

  Definition w_on {A} (p : list ev) (u : U) (r : nat) (m : MW A) (k : A -> res T) : mout T * (list ev * U) :=
    match nth_error p r with
    | None => (MRes RNoReg, (p, u))
    | Some v => let '(o, s) := m (v, u) in (of_outcome k o, (upd p r (fst s), snd s))
    end.
  Definition w_new (p : list ev) (u : U) (m : M U ev) : mout T * (list ev * U) :=
    match m u with
    | (Ret v, u') => (MRes RUnit, (p ++ [v], u'))
    | (o, u') => (of_outcome (fun _ => RUnit) o, (p, u'))
    end.
  (** a user iterator whose state is part of U *)
  Definition shared_next (next : M U (option T)) (_ : unit) : M U (option T * unit) := x <- next ;; ret (x, tt).

  Definition w_step (s : list ev * U) (o : wop) : mout T * (list ev * U) :=
    let '(p, u) := s in
    match o with
    | WPlain o => if silent o then let '(r, p') := m_step c shape p o in (r, (p', u)) else (MRes RNoReg, (p, u))
    | WPush r x => w_on p u r (w_push x) (fun _ => RUnit)
    | WPop r => w_on p u r w_pop (@ROpt T)
    | WInsert r i x => w_on p u r (w_insert i x) (fun _ => RUnit)
    | WRemove r i => w_on p u r (w_remove i) (@RVal T)
    | WSwapRemove r i => w_on p u r (w_swap_remove i) (@RVal T)
    | WResize r n x => w_on p u r (w_resize n x) (fun _ => RUnit)
    | WRead r i => w_on p u r (w_get i) (@ROpt T)
    | WSet r i x => w_on p u r (w_set i x) (fun _ => RUnit)
    | WExtend r fuel hint next => w_on p u r (w_extend (shared_next next) fuel hint tt) (fun _ => RUnit)
    | WRetain r f => w_on p u r (w_retain f) (fun _ => RUnit)
    | WForEach r f => w_on p u r (w_for_each f) (fun _ => RUnit)
    | WAny r x => w_on p u r (w_any x) RBool
    | WAll r x => w_on p u r (w_all x) RBool
    | WEach r f => w_on p u r (w_each f) (@RList T)
    | WIter r calls => w_on p u r (fun s => w_iter (into_iter (fst s)) calls s) (@RIter T)
    | WHash r h => w_on p u r (w_hash h) (fun _ => RUnit)
    | WFromElem x n => w_new p u (w_build (w_extend_with_value x n))
    | WFromSlice l => w_new p u (w_build (w_extend cloned_next 1 (ret (lenN l)) l))
    | WFromVec l => w_new p u (w_build (w_extend vec_next 1 (ret (lenN l)) l))
    | WFromIter fuel hint next => w_new p u (w_build (w_extend (shared_next next) fuel hint tt))
    end.

  (** A client catches panics and goes on; it sees its own state and all results. *)
  Definition wclient : Type := list (mout T) -> U -> option wop.
  Fixpoint w_play (n : nat) (k : wclient) (seen : list (mout T)) (s : list ev * U) : list (mout T) * (list ev * U) :=
    match n with
    | O => ([], s)
    | S n' =>
        match k seen (snd s) with
        | None => ([], s)
        | Some o =>
            match w_step s o with
            | (MAbort, s') => ([MAbort], s')
            | (MUB, s') => ([MUB], s')
            | (x, s') => let '(rs, s'') := w_play n' k (seen ++ [x]) s' in (x :: rs, s'')
            end
        end
    end.

  (** Safe Rust has no undefined behaviour of its own. *)
  Definition sane {A} (m : M U A) : Prop := forall u, fst (m u) <> UB.
  Definition sane_user : Prop :=
    (forall x, sane (u_to X x)) /\ (forall d, sane (u_from X d)) /\ (forall x, sane (u_clone X x)).
  (** what the user's size_hint may answer *)
  Definition hints (m : M U N) : Prop := forall u, match fst (m u) with Ret n => amount c shape n = true | _ => True end.

  (** The arguments are usize, hints and amounts are those of C26, no split_off or Vec-storage append (C09, C10).
      No condition on what user code does. *)
  Definition tame_wop (o : wop) : Prop :=
    match o with
    | WPlain o => tame_op c shape o = true
    | WInsert _ i _ => usz c i = true
    | WResize _ n _ | WFromElem _ n => usz c n = true
    | WExtend _ _ hint next | WFromIter _ hint next => sane hint /\ hints hint /\ sane next
    | WFromSlice l | WFromVec l => amount c shape (lenN l) = true
    | WRetain _ f => forall x, sane (f x)
    | WForEach _ f => forall x, sane (f x)
    | WEach _ f => forall x, sane (f x)
    | WHash _ h => forall d, sane (h d)
    | _ => True
    end.
  Definition tame_wclient (k : wclient) : Prop := forall seen u o, k seen u = Some o -> tame_wop o.
End User.
Arguments wop U T : clear implicits.
Arguments wclient U T : clear implicits.

(** The user code of a pure implementation E, with Clone a copy. *)
Definition pure_user {U T} (E : enumlike T) : usercode U T :=
  mkUser (nv E) (fun x => ret (to_d E x)) (fun d => lift (from_discr E d)) (fun x => ret x).

(** *** Truthful user code: it may panic at any time and keep any state, but when it answers, the
    answer is that of E. *)
Section Truthful.
  Context {U T : Type} (E : enumlike T) (X : usercode U T).
  Definition truthful : Prop :=
    u_nv X = nv E /\
    (forall x u d u', u_to X x u = (Ret d, u') -> d = to_d E x) /\
    (forall d u x u', u_from X d u = (Ret x, u') -> from_d E d = Some x) /\
    (forall x u y u', u_clone X x u = (Ret y, u') -> y = x).
  (** k is a panic of the user's own code *)
  Definition users (k : panic) : Prop :=
    (exists x u, fst (u_to X x u) = Panic k) \/ (exists d u, fst (u_from X d u) = Panic k) \/ (exists x u, fst (u_clone X x u) = Panic k).
End Truthful.
(** A call r that runs user code does what the call r0 of EnumVec.v does, unless user code panics:
    then the vector is one of those that F describes. *)
Definition follows {U A} (r : outcome A * (ev * U)) (r0 : outcome A * ev) (F : panic -> ev -> Prop) : Prop :=
  match r with
  | (Ret a, s') => r0 = (Ret a, fst s')
  | (Panic k, s') => r0 = (Panic k, fst s') \/ F k (fst s')
  | (Abort, _) => True
  | (UB, _) => fst r0 = UB
  end.
(** A log kept in the user's state: [records log m out] -- running m appends to it what [out] says of m's answer. *)
Definition records {U L A} (log : U -> list L) (m : M U A) (out : A -> list L) : Prop :=
  forall u, log (snd (m u)) = log u ++ match fst (m u) with Ret a => out a | _ => [] end.
Definition quiet {U L A} (log : U -> list L) (m : M U A) : Prop := records log m (fun _ => []).
Definition quiet_user {U T L} (log : U -> list L) (X : usercode U T) : Prop :=
  (forall x, quiet log (u_to X x)) /\ (forall d, quiet log (u_from X d)) /\ (forall x, quiet log (u_clone X x)).
