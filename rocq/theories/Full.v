(** Full.v -- the full statements of the properties that the code does not satisfy in
    full generality.  Prop*.v proves a guarded version of each (suffix _partial) and the
    negation of the full statement (suffix _refuted).  Definitions only. *)
From Verif Require Export Claims Guard.
Open Scope N_scope.

(** every number in the call is a usize *)
Definition usize_op {T} (c : cfg) (o : op T) : bool :=
  match o with
  | OWithCapacity n => n <=? usize_max c
  | OFromElem _ n => n <=? usize_max c
  | OFromSlice l => lenN l <=? usize_max c
  | OFromIter it => lower it <=? usize_max c
  | OExtend _ it => lower it <=? usize_max c
  | OInsert _ i _ | ORemove _ i | OSwapRemove _ i | ORead _ i | OSet _ i _ => i <=? usize_max c
  | OSwap _ a b => (a <=? usize_max c) && (b <=? usize_max c)
  | OTruncate _ n | OResize _ n _ | OReserve _ n | OSplitOff _ n => n <=? usize_max c
  | OIter _ calls => forallb (fun ca => match ca with INth n => n <=? usize_max c | _ => true end) calls
  | _ => true
  end.
(** the size hint of the iterators in the call is a true lower bound *)
Definition honest_op {T} (o : op T) : bool :=
  match o with
  | OFromIter it | OExtend _ it => lower it <=? lenN (items it)
  | _ => true
  end.
(** the call completed (with a result or a panic of its own), memory did not run out *)
Definition completed {T} (m : mout T) : Prop := exists r, m = MRes r.

(** The first rule of EnumLike only: to_discr is below NUM_VARIANTS. *)
Definition bounded {T} (E : enumlike T) : Prop := forall x, to_d E x < nv E.

(** C01: the width is the minimum one for everything that compiles. *)
Definition C01_full : Prop :=
  forall T (c : cfg) (E : enumlike T), cfg_ok c -> compiles c E = true ->
    2 ^ (BITS E - 1) < nv E /\ nv E <= 2 ^ BITS E /\ 1 <= EPB c E.

(** C04: insert is Vec::insert. *)
Definition C04_full : Prop :=
  forall T (c : cfg) (E : enumlike T), setting c E -> forall v l i x, holds c E v l -> i <= usize_max c ->
    result (insert c E i x v)
      (fun _ v' => i <= lenN l /\ holds c E v' (l_insert l i x))
      (fun k v' => holds c E v' l /\ (no_room k \/ lenN l < i)).

(** C05: remove is Vec::remove. *)
Definition C05_full : Prop :=
  forall T (c : cfg) (E : enumlike T), setting c E -> forall v l i x, holds c E v l -> l_get l i = Some x ->
    result_noalloc (remove c E i v) (fun y v' => y = x /\ holds c E v' (l_remove l i)) no_panic.

(** C09: append moves everything. *)
Definition C09_full : Prop :=
  forall T (c : cfg) (E : enumlike T), setting c E -> forall v w l m, holds c E v l -> holds c E w m ->
    result (append c E (v, w)) (fun _ s => holds c E (fst s) (l ++ m) /\ holds c E (snd s) [])
      (fun k s => no_room k /\ holds c E (fst s) l /\ holds c E (snd s) m).

(** C10: split_off divides the vector. *)
Definition C10_full : Prop :=
  forall T (c : cfg) (E : enumlike T), setting c E -> forall v l at_, holds c E v l -> at_ <= lenN l ->
    result (split_off c E at_ v)
      (fun w v' => holds c E v' (firstn (N.to_nat at_) l) /\ holds c E w (skipn (N.to_nat at_) l))
      (fun k v' => no_room k /\ holds c E v' l).

(** C12: with Rust's doubling allocation, from_elem allocates a bounded multiple (here
    even 8) of the ceil((n+1)/P) blocks it keeps in use. *)
Definition C12_full : Prop :=
  forall T w usz debug sm amax (E : enumlike T), let c := std_cfg w usz debug sm amax in setting c E ->
    forall x n v, n <= usize_max c -> from_elem c E x n = Ret v -> vcap (storage v) <= 8 * (n / EPB c E + 1).

(** C13: extend with an honest iterator. *)
Definition C13_full : Prop :=
  forall T (c : cfg) (E : enumlike T), setting c E -> forall v l it, holds c E v l ->
    lower it <= lenN (items it) -> lower it <= usize_max c ->
    result (extend c E it v) (fun _ v' => ends_in_panic it = false /\ holds c E v' (l ++ items it))
      (fun k v' => (no_room k /\ exists l1 l2, items it = l1 ++ l2 /\ holds c E v' (l ++ l1)) \/
                   (k = PUser /\ ends_in_panic it = true /\ holds c E v' (l ++ items it))).

(** C14: extend when the iterator panics, or ends before its size hint says. *)
Definition C14_full : Prop :=
  forall T (c : cfg) (E : enumlike T), setting c E -> forall v l it, holds c E v l -> lower it <= usize_max c ->
    result (extend c E it v) (fun _ v' => holds c E v' (l ++ items it))
      (fun k v' => exists l1 l2, items it = l1 ++ l2 /\ holds c E v' (l ++ l1)).

(** C21: no undefined behaviour in any program of safe calls (here even: with a well-behaved
    element type). *)
Definition C21_full : Prop :=
  forall T (c : cfg) (E : enumlike T), cfg_ok c -> alloc_isize c -> admits c E -> bounded E ->
    forall prog, forallb (usize_op c) prog = true -> ~ In MUB (fst (m_run c E [] prog)).

(** C22: agreement with Vec. *)
Definition C22_full : Prop :=
  forall T (c : cfg) (E : enumlike T), setting c E ->
    forall prog, forallb (usize_op c) prog = true -> forallb honest_op prog = true ->
    agrees (fst (m_run c E [] prog)) (fst (s_run (to_d E) [] prog)).

(** C23: the configuration cannot be observed. *)
Definition C23_full : Prop :=
  forall T (c1 c2 : cfg) (E : enumlike T), setting c1 E -> setting c2 E ->
    forall prog, forallb (usize_op c1) prog = true -> forallb (usize_op c2) prog = true -> forallb honest_op prog = true ->
    Forall completed (fst (m_run c1 E [] prog)) -> Forall completed (fst (m_run c2 E [] prog)) ->
    fst (m_run c1 E [] prog) = fst (m_run c2 E [] prog).

(** C25: with_capacity(n) makes room for n elements. *)
Definition C25_full : Prop :=
  forall T (c : cfg) (E : enumlike T), setting c E -> forall n, n <= usize_max c ->
    builds (with_capacity c E n) (fun v => holds c E v [] /\ n <= capacity c E v) (fun k => k = PCapacity).

(** C26: reserve never loses elements. *)
Definition C26_full : Prop :=
  forall T (c : cfg) (E : enumlike T), setting c E -> forall v l k, holds c E v l -> k <= usize_max c ->
    result (reserve c E k v) (fun _ v' => holds c E v' l /\ lenN l + k <= capacity c E v') (fun _ v' => holds c E v' l).

(** C27: extending within capacity() does not allocate. *)
Definition C27_full : Prop :=
  forall T (c : cfg) (E : enumlike T), setting c E -> forall v l xs, holds c E v l ->
    lenN l + lenN xs <= capacity c E v ->
    exists v', extend c E (exact_iter xs) v = (Ret tt, v') /\ holds c E v' (l ++ xs) /\ same_allocation v v'.

(** C29: element types with more than 2^32 variants read back what was written. *)
Definition C29_full : Prop :=
  forall T (c : cfg) (E : enumlike T), cfg_ok c -> alloc_isize c -> compiles c E = true -> lawful E -> 2 ^ 32 < nv E ->
    forall prog, ok_program c E prog = true ->
    agrees (fst (m_run c E [] prog)) (fst (s_run (to_d E) [] prog)).

(** C39: vectors with equal elements cannot be told apart by any later program. *)
Definition C39_full : Prop :=
  forall T (c : cfg) (E : enumlike T), setting c E -> forall v w l, holds c E v l -> holds c E w l ->
    forall prog, forallb (usize_op c) prog = true -> forallb honest_op prog = true ->
    Forall completed (fst (m_run c E [v] prog)) -> Forall completed (fst (m_run c E [w] prog)) ->
    fst (m_run c E [v] prog) = fst (m_run c E [w] prog).

(** C41: no element is lost near the usize limit. *)
Definition C41_full : Prop :=
  forall T (c : cfg) (E : enumlike T), setting c E ->
    forall v l, holds c E v l -> exists v', shrink_to_fit c E v = (Ret tt, v') /\ holds c E v' l.

(** C42: a call that panics leaves only valid vectors behind. *)
Definition C42_full : Prop :=
  forall T (c : cfg) (E : enumlike T), setting c E -> forall p o, Forall (valid c E) p -> usize_op c o = true ->
    fst (m_step c E p o) = MRes RPanic \/ fst (m_step c E p o) = MCap -> Forall (valid c E) (snd (m_step c E p o)).
