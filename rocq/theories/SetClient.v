(** SetClient.v -- clients of EnumSet: each call may depend on all results seen so far.
    [set_play] runs them on the model of EnumSet, [tells] says what they must see, in terms of
    sets as predicates on T.  No proofs in this file. *)
From Verif Require Export EnumSet.
From Coq Require Export Sorted.
Open Scope N_scope.
Set Implicit Arguments.

(** Which iterator: iter(), union(&t), intersection(&t), difference(&t), symmetric_difference(&t) *)
Inductive siter := WIter (r : nat) | WUnion (r r2 : nat) | WIntersection (r r2 : nat) | WDifference (r r2 : nat) | WSymmetricDifference (r r2 : nat).
(** A call: one that may change a set ([sop], EnumSet.v), or a question. *)
Inductive scall (T : Type) :=
| Do (o : sop T)
| Contains (r : nat) (x : T)
| Len (r : nat)
| IsEmpty (r : nat)
| IsEq (r r2 : nat)
| IsSubset (r r2 : nat)
| IsSuperset (r r2 : nat)
| IsDisjoint (r r2 : nat)
| Take (w : siter) (n : nat) (* n calls of next *)
| Compare (r r2 : nat) (* s.cmp(&t) *)
| HashOf (r : nat) (* the numbers fed to the Hasher *)
| Bits (r : nat). (* the members of get_ref() or into_bit_set() *)
Arguments Len {T} r. Arguments IsEmpty {T} r. Arguments IsEq {T} r r2. Arguments IsSubset {T} r r2.
Arguments IsSuperset {T} r r2. Arguments IsDisjoint {T} r r2. Arguments Take {T} w n. Arguments Compare {T} r r2. Arguments HashOf {T} r. Arguments Bits {T} r.
(** What the caller sees.  ANoSuch: there is no such set; the program does not compile. *)
Inductive answer (T : Type) := AUnit | ABool (b : bool) | ANum (n : N) | AItems (l : list (option T)) | AOrder (o : comparison) | ANums (l : list N) | APanic | ANoSuch.
Arguments AUnit {T}. Arguments ABool {T} b. Arguments ANum {T} n. Arguments AOrder {T} o. Arguments ANums {T} l. Arguments APanic {T}. Arguments ANoSuch {T}.
Definition set_client (T : Type) : Type := list (answer T) -> option (scall T).

Section Model.
  Context {T : Type} (E : enumlike T).
  Definition ans {A} (k : A -> answer T) (o : outcome A) : answer T := match o with Ret a => k a | _ => APanic end.
  Definition ask1 (p : pool) (r : nat) (f : set -> answer T) : answer T :=
    match nth_error p r with Some s => f s | None => ANoSuch end.
  Definition ask2 (p : pool) (r r2 : nat) (f : set -> set -> answer T) : answer T :=
    ask1 p r (fun s => ask1 p r2 (fun t => f s t)).
  (** the result of a call that may change a set; its effect is [sstep] (EnumSet.v) *)
  Definition do_answer (p : pool) (o : sop T) : answer T :=
    match o with
    | SNew | SFromBits _ => AUnit
    | SFromIter xs panics => ans (fun _ => AUnit) (set_from_iter E xs panics)
    | SClone r => ask1 p r (fun _ => AUnit)
    | SInsert r x => ask1 p r (fun s => ans ABool (fst (set_insert E x s)))
    | SRemove r x => ask1 p r (fun s => ans ABool (fst (set_remove E x s)))
    | SClear r => ask1 p r (fun s => ans (fun _ => AUnit) (fst (set_clear s)))
    | SShrink r => ask1 p r (fun s => ans (fun _ => AUnit) (fst (set_shrink s)))
    | SExtend r xs panics => ask1 p r (fun s => ans (fun _ => AUnit) (fst (set_extend E xs panics s)))
    | SUnionWith r r2 => ask2 p r r2 (fun s t => ans (fun _ => AUnit) (fst (set_union_with t s)))
    | SIntersectWith r r2 => ask2 p r r2 (fun s t => ans (fun _ => AUnit) (fst (set_intersect_with t s)))
    | SDifferenceWith r r2 => ask2 p r r2 (fun s t => ans (fun _ => AUnit) (fst (set_difference_with t s)))
    | SSymmetricDifferenceWith r r2 => ask2 p r r2 (fun s t => ans (fun _ => AUnit) (fst (set_symmetric_difference_with t s)))
    end.
  Definition take (n : nat) (i : wrap) : answer T := ans (@AItems T) (fst (wrap_run E n i)).
  Definition call (p : pool) (k : scall T) : answer T * pool :=
    match k with
    | Do o => (do_answer p o, sstep E p o)
    | Contains r x => (ask1 p r (fun s => ABool (set_contains E s x)), p)
    | Len r => (ask1 p r (fun s => ANum (set_len s)), p)
    | IsEmpty r => (ask1 p r (fun s => ABool (set_is_empty s)), p)
    | IsEq r r2 => (ask2 p r r2 (fun s t => ABool (set_eq s t)), p)
    | IsSubset r r2 => (ask2 p r r2 (fun s t => ABool (set_is_subset s t)), p)
    | IsSuperset r r2 => (ask2 p r r2 (fun s t => ABool (set_is_superset s t)), p)
    | IsDisjoint r r2 => (ask2 p r r2 (fun s t => ABool (set_is_disjoint s t)), p)
    | Take (WIter r) n => (ask1 p r (fun s => take n (set_iter s)), p)
    | Take (WUnion r r2) n => (ask2 p r r2 (fun s t => take n (set_union s t)), p)
    | Take (WIntersection r r2) n => (ask2 p r r2 (fun s t => take n (set_intersection s t)), p)
    | Take (WDifference r r2) n => (ask2 p r r2 (fun s t => take n (set_difference s t)), p)
    | Take (WSymmetricDifference r r2) n => (ask2 p r r2 (fun s t => take n (set_symmetric_difference s t)), p)
    | Compare r r2 => (ask2 p r r2 (fun s t => AOrder (set_cmp s t)), p)
    | HashOf r => (ask1 p r (fun s => ANums (set_hash s)), p)
    | Bits r => (ask1 p r (fun s => ANums (set_into_bits s)), p)
    end.
  Fixpoint set_play (n : nat) (k : set_client T) (seen : list (answer T)) (p : pool) : list (answer T) :=
    match n with
    | O => []
    | S n' => match k seen with
              | None => []
              | Some ca => let '(a, p') := call p ca in a :: set_play n' k (seen ++ [a]) p'
              end
    end.
End Model.

(** ** Specification: sets are predicates *)
Section Spec.
  Context {T : Type} (num : T -> N). (* the numbering of T: from_bit_set, and the order of iteration *)
  Definition pset : Type := T -> Prop.
  (** set number r becomes s *)
  Fixpoint becomes (P : list pset) (r : nat) (s : pset) : list pset :=
    match P, r with
    | [], _ => []
    | _ :: P', O => s :: P'
    | t :: P', S r' => t :: becomes P' r' s
    end.
  Definition change (P : list pset) (r : nat) (f : pset -> pset) : list pset :=
    match nth_error P r with Some s => becomes P r (f s) | None => P end.
  Definition change2 (P : list pset) (r r2 : nat) (f : pset -> pset -> pset) : list pset :=
    match nth_error P r2 with Some t => change P r (fun s => f s t) | None => P end.
  Definition after (P : list pset) (k : scall T) : list pset :=
    match k with
    | Do SNew => P ++ [fun _ => False]
    | Do (SFromIter xs panics) => if panics then P else P ++ [fun y => In y xs]
    | Do (SFromBits b) => P ++ [fun y => In (num y) b]
    | Do (SClone r) => match nth_error P r with Some s => P ++ [s] | None => P end
    | Do (SInsert r x) => change P r (fun s y => y = x \/ s y)
    | Do (SRemove r x) => change P r (fun s y => y <> x /\ s y)
    | Do (SClear r) => change P r (fun _ _ => False)
    | Do (SShrink r) => P
    | Do (SExtend r xs _) => change P r (fun s y => In y xs \/ s y)
    | Do (SUnionWith r r2) => change2 P r r2 (fun s t y => s y \/ t y)
    | Do (SIntersectWith r r2) => change2 P r r2 (fun s t y => s y /\ t y)
    | Do (SDifferenceWith r r2) => change2 P r r2 (fun s t y => s y /\ ~ t y)
    | Do (SSymmetricDifferenceWith r r2) => change2 P r r2 (fun s t y => (s y /\ ~ t y) \/ (t y /\ ~ s y))
    | _ => P
    end.
  (** a is true or false, and true exactly if Q *)
  Definition truth (a : answer T) (Q : Prop) : Prop := exists b, a = ABool b /\ (b = true <-> Q).
  (** a is what n calls of next give on an iterator over the members of s, in the order of their numbers *)
  Definition lists (a : answer T) (n : nat) (s : pset) : Prop := exists l,
    StronglySorted (fun x y => num x < num y) l /\ (forall y, In y l <-> s y) /\
    a = AItems (map Some (firstn n l) ++ repeat None (n - length l)).
  (** a lists the numbers of the members of s in ascending order *)
  Definition numbers (a : answer T) (s : pset) : Prop := exists l,
    StronglySorted (fun x y => num x < num y) l /\ (forall y, In y l <-> s y) /\ a = ANums (map num l).
  (** s comes before t: with x the member of least number that only one of them has, either t has it
      and s has nothing of greater number, or s has it and t has something of greater number.
      (The lexicographic order of the lists of members.) *)
  Definition before (s t : pset) : Prop := exists x, (forall y, num y < num x -> (s y <-> t y)) /\
    ((~ s x /\ t x /\ forall y, s y -> num y < num x) \/ (s x /\ ~ t x /\ exists y, t y /\ num x < num y)).
  Definition of1 (P : list pset) (r : nat) (a : answer T) (Q : pset -> Prop) : Prop :=
    match nth_error P r with Some s => Q s | None => a = ANoSuch end.
  Definition of2 (P : list pset) (r r2 : nat) (a : answer T) (Q : pset -> pset -> Prop) : Prop :=
    of1 P r a (fun s => of1 P r2 a (fun t => Q s t)).
  (** which answers a call may have *)
  Definition tells (P : list pset) (k : scall T) (a : answer T) : Prop :=
    match k with
    | Do SNew | Do (SFromBits _) => a = AUnit
    | Do (SFromIter _ panics) => a = if panics then APanic else AUnit
    | Do (SClone r) | Do (SClear r) | Do (SShrink r) => of1 P r a (fun _ => a = AUnit)
    | Do (SInsert r x) => of1 P r a (fun s => truth a (~ s x))
    | Do (SRemove r x) => of1 P r a (fun s => truth a (s x))
    | Do (SExtend r _ panics) => of1 P r a (fun _ => a = if panics then APanic else AUnit)
    | Do (SUnionWith r r2) | Do (SIntersectWith r r2) | Do (SDifferenceWith r r2) | Do (SSymmetricDifferenceWith r r2) =>
        of2 P r r2 a (fun _ _ => a = AUnit)
    | Contains r x => of1 P r a (fun s => truth a (s x))
    | Len r => of1 P r a (fun s => exists l, NoDup l /\ (forall y, In y l <-> s y) /\ a = ANum (lenN l))
    | IsEmpty r => of1 P r a (fun s => truth a (forall y, ~ s y))
    | IsEq r r2 => of2 P r r2 a (fun s t => truth a (forall y, s y <-> t y))
    | IsSubset r r2 => of2 P r r2 a (fun s t => truth a (forall y, s y -> t y))
    | IsSuperset r r2 => of2 P r r2 a (fun s t => truth a (forall y, t y -> s y))
    | IsDisjoint r r2 => of2 P r r2 a (fun s t => truth a (forall y, ~ (s y /\ t y)))
    | Take (WIter r) n => of1 P r a (lists a n)
    | Take (WUnion r r2) n => of2 P r r2 a (fun s t => lists a n (fun y => s y \/ t y))
    | Take (WIntersection r r2) n => of2 P r r2 a (fun s t => lists a n (fun y => s y /\ t y))
    | Take (WDifference r r2) n => of2 P r r2 a (fun s t => lists a n (fun y => s y /\ ~ t y))
    | Take (WSymmetricDifference r r2) n => of2 P r r2 a (fun s t => lists a n (fun y => (s y /\ ~ t y) \/ (t y /\ ~ s y)))
    | Compare r r2 => of2 P r r2 a (fun s t => exists o, a = AOrder o /\ (o = Lt <-> before s t) /\ (o = Gt <-> before t s) /\ (o = Eq <-> forall y, s y <-> t y))
    | HashOf r | Bits r => of1 P r a (numbers a)
    end.
  (** the answers to the client's first n calls are those sets give *)
  Inductive sees (k : set_client T) : nat -> list (answer T) -> list pset -> list (answer T) -> Prop :=
  | sees_enough seen P : sees k O seen P []
  | sees_done n seen P : k seen = None -> sees k (S n) seen P []
  | sees_call n seen P ca a rest : k seen = Some ca -> tells P ca a ->
      sees k n (seen ++ [a]) (after P ca) rest -> sees k (S n) seen P (a :: rest).
  (** from_bit_set is given only bit sets of numbers of values (C43); a bit set lists its numbers in ascending order *)
  Definition own_bits (k : set_client T) : Prop := forall seen b, k seen = Some (Do (SFromBits b)) ->
    StronglySorted N.lt b /\ forall d, In d b -> exists x, num x = d.
End Spec.
