(** PropProg.v -- properties of whole programs of calls (Program.v) on pools of vectors. *)
From Verif Require Import ProgFacts SafeAny.
Open Scope N_scope.

(** A program that exercises most calls, used as a witness below. *)
Definition demo {T} (f : N -> T) : list (op T) :=
  [OFromSlice (map f [1; 2; 3; 0; 1; 2; 3; 0; 1; 2; 3; 0]); OPush 0 (f 2); OClone 0; OPop 1; ORemove 0 1; OSwap 0 2 5;
   OSwapRemove 0 3; OTruncate 0 7; OResize 0 9 (f 3); OSet 0 4 (f 1); OSet 0 40 (f 1); ORead 0 4; OReserve 1 100; OShrink 1;
   OExtend 1 (mkIter (map f [3; 2; 1]) 2 false); OExtend 1 (mkIter (map f [3; 2; 1]) 2 true); OAppend 1 0;
   OToVec 1; OToVec 0; ORetain 1 (fun seen _ => Some (Nat.even (length seen))); OForEach 1 (fun seen x => match seen with [] => Some x | y :: _ => Some y end);
   OIter 1 [INext; INextBack; ISizeHint; INth 3; ICount; INext]; OAny 1 (f 1); OAll 1 (f 1); OEq 0 1; OHash 1; OLen 0; OIsEmpty 0;
   OFromElem (f 2) 50; OSplitOff 0 (0); OInsert 2 1 (f 0); ORead 2 1; OClear 2; OWithCapacity 10; ONew].
Definition finished {T} (l : list (mout T)) : bool := forallb (fun m => match m with MRes _ => true | _ => false end) l.

(** ** C21: memory safety *)
(** For any EnumLike implementation at all, also one that breaks the trait's contract
    (to_discr beyond NUM_VARIANTS, from_discr panicking or returning other values): the
    contents may then be garbage, but no memory outside the storage is touched.  [safe_program] excludes, at the calls where they
    occur: split_off of a non-empty tail, append of a non-empty vector to a block-aligned
    one (Vec storages), and reserve amounts or size hints above isize::MAX when only one element fits a
    block.  The first two and the last are refuted below. *)
Theorem C21_memory_safety_partial : forall T (c : cfg) (E : enumlike T), cfg_ok c -> alloc_isize c -> compiles c E = true ->
  forall prog, safe_program c E prog = true ->
  ~ In MUB (fst (m_run c E [] prog)) /\
  (~ In MAbort (fst (m_run c E [] prog)) -> Forall (valid c E) (snd (m_run c E [] prog))).
Proof. intros T c E H1 H2 H3 prog H. exact (any_runs H1 H3 H2 (Forall_nil _) H). Qed.
Theorem C21_memory_safety_refuted : ~ C21_full.
Proof. exact C21_not. Qed.
Theorem C21_append_refuted : In MUB (seen u32_release (fin 5) [ONew; OFromSlice (map f5 [1; 2]); OAppend 0 1; ORead 1 0]).
Proof. exact UB_append. Qed.
(** the program, and one with wide elements, a lying iterator and an insert out of bounds *)
Example C21_example : safe_program u32_debug (fin 5) (demo f5) = true /\ length (demo f5) = 35%nat /\
  finished (seen u32_debug (fin 5) (demo f5)) = true /\
  safe_program u8_release (fin 256)
    [OFromSlice (map f256 [7; 200; 9]); OInsert 0 1 (f256 5); OInsert 0 90 (f256 6); ORemove 0 0;
     OExtend 0 (mkIter [] 9 true); OToVec 0] = true.
Proof. split; [vm_compute; reflexivity|]. split; [reflexivity|]. split; vm_compute; reflexivity. Qed.
(** an implementation that lies about its numbers: the neighbours are overwritten, safely *)
Definition liar : enumlike N := {| nv := 5; to_d := fun x => x * 1000 + 77; from_d := fun d => if d =? 3 then None else Some d |}.
Definition liar_prog : list (op N) :=
  [OFromElem 2 50; OPush 0 3; OInsert 0 4 9; ORemove 0 1; OToVec 0; OResize 0 90 1; ORetain 0 (fun _ x => Some (x <? 4)); OAny 0 5].
Example C21_liar : compiles u32_debug liar = true /\ safe_program u32_debug liar liar_prog = true /\ length (seen u32_debug liar liar_prog) = 8%nat.
Proof. split; [reflexivity|]. split; vm_compute; reflexivity. Qed.

(** ** C22: agreement with Vec, call by call *)
(** [ok_program] (Guard.v) excludes exactly the departures proved in PropShift.v and
    PropGrow.v: dishonest iterators, insert past the end or with BITS = W, remove on a
    vector that may have dirty unused bits, append to a block-aligned vector, split_off of a
    non-empty tail, huge reserves. *)
Theorem C22_agrees_partial : forall T (c : cfg) (E : enumlike T), setting c E ->
  forall prog, ok_program c E prog = true ->
  agrees (fst (m_run c E [] prog)) (fst (s_run (to_d E) [] prog)).
Proof. intros T c E Hs prog H. exact (program_sim Hs H). Qed.
Theorem C22_agrees_refuted : ~ C22_full.
Proof. exact C22_not. Qed.
Example C22_example : ok_program u32_debug (fin 5) (demo f5) = true /\
  finished (seen u32_debug (fin 5) (demo f5)) = true /\
  seen u32_debug (fin 5) (demo f5) = map (@MRes _) (as_vec (to_d (fin 5)) (demo f5)).
Proof. split; [vm_compute; reflexivity|]. split; vm_compute; reflexivity. Qed.

(** ** C23: the configuration is not observable *)
Theorem C23_same_results_partial : forall T (c1 c2 : cfg) (E : enumlike T), setting c1 E -> setting c2 E ->
  forall prog, ok_program c1 E prog = true -> ok_program c2 E prog = true ->
  Forall completed (fst (m_run c1 E [] prog)) -> Forall completed (fst (m_run c2 E [] prog)) ->
  fst (m_run c1 E [] prog) = fst (m_run c2 E [] prog).
Proof. intros T c1 c2 E H1 H2 prog O1 O2 C1 C2. exact (same_config H1 H2 O1 O2 C1 C2). Qed.
Theorem C23_same_results_refuted : ~ C23_full.
Proof. exact C23_not. Qed.
Example C23_example :
  Forall (fun c => ok_program c (fin 5) (demo f5) = true /\ finished (seen c (fin 5) (demo f5)) = true)
    [u32_debug; u32_release; u64_release; u128_release; small_release].
Proof. repeat (constructor; [split; vm_compute; reflexivity|]). constructor. Qed.

(** ** C24: clone *)
Theorem C24_clone : forall T (c : cfg) (E : enumlike T), setting c E -> forall v l, holds c E v l ->
  builds (clone c v) (fun v' => holds c E v' l /\ eq c E v v' = Ret true) (fun k => k = PCapacity).
Proof. intros T c E Hs v l H. exact (clone_eq Hs H). Qed.
(** independence: a program that does not mention a vector leaves it as it was *)
Theorem C24_independent : forall T (c : cfg) (E : enumlike T) prog p r,
  (forall o, In o prog -> ~ In r (regs o)) -> (r < length p)%nat ->
  nth_error (snd (m_run c E p prog)) r = nth_error p r.
Proof. intros T c E prog p r H1 H2. exact (run_frame c E H1 H2). Qed.
Example C24_example : exists w, clone u32_debug (old_vec u32_debug) = Ret w.
Proof. eexists. vm_compute. reflexivity. Qed.

(** ** C39: stale data is not observable *)
(** [b = true]: the unused bits of both vectors are zero, and remove is covered too *)
Theorem C39_indistinguishable_partial : forall T (c : cfg) (E : enumlike T), setting c E ->
  forall v w l (b : bool), holds c E v l -> holds c E w l -> (b = true -> tidy c E v /\ tidy c E w) ->
  forall prog, ok_run c E [l] [b] prog = true ->
  Forall completed (fst (m_run c E [v] prog)) -> Forall completed (fst (m_run c E [w] prog)) ->
  fst (m_run c E [v] prog) = fst (m_run c E [w] prog).
Proof. intros T c E Hs v w l b Hv Hw Hb prog Hok H1 H2. exact (indistinct Hs Hv Hw Hb Hok H1 H2). Qed.
Theorem C39_indistinguishable_refuted : ~ C39_full.
Proof. exact C39_not. Qed.
Example C39_example : exists w, holds u32_debug (fin 5) w old_list /\ storage w <> storage (old_vec u32_debug) /\
  ok_run u32_debug (fin 5) [old_list] [false]
    [OPush 0 (f5 2); OClone 0; OPop 1; OInsert 0 3 (f5 4); OSwapRemove 0 2; OResize 0 9 (f5 3); OEq 0 1; OAny 0 (f5 2); OToVec 0] = true.
Proof.
  destruct eq_with_stale as [w [H1 [H2 _]]]. exists w. split; [exact H1|]. split; [exact H2|]. vm_compute. reflexivity.
Qed.

(** ** C42: a panic leaves every vector usable *)
Theorem C42_panic_safe_partial : forall T (c : cfg) (E : enumlike T), cfg_ok c -> alloc_isize c -> compiles c E = true ->
  forall p o, Forall (valid c E) p -> safe_op c E p o = true ->
  fst (m_step c E p o) = MRes RPanic \/ fst (m_step c E p o) = MCap ->
  Forall (valid c E) (snd (m_step c E p o)).
Proof.
  intros T c E H1 H2 H3 p o Hp Hok Hx. apply (proj2 (any_steps H1 H3 H2 Hp Hok)). destruct Hx as [-> | ->]; discriminate.
Qed.
(** and any further safe program runs on them *)
Theorem C42_continue_partial : forall T (c : cfg) (E : enumlike T), cfg_ok c -> alloc_isize c -> compiles c E = true ->
  forall p prog, Forall (valid c E) p -> safe_run c E p prog = true -> ~ In MUB (fst (m_run c E p prog)).
Proof. intros T c E H1 H2 H3 p prog Hp Hok. exact (proj1 (any_runs H1 H3 H2 Hp Hok)). Qed.
Theorem C42_panic_safe_refuted : ~ C42_full.
Proof. exact C42_not. Qed.
Example C42_example : fst (m_step u32_debug (fin 5) [old_vec u32_debug] (OExtend 0 (mkIter [f5 1] 9 true))) = MRes RPanic /\
  safe_op u32_debug (fin 5) [old_vec u32_debug] (OExtend 0 (mkIter [f5 1] 9 true)) = true /\
  Forall (valid u32_debug (fin 5)) [old_vec u32_debug].
Proof.
  split; [vm_compute; reflexivity|]. split; [vm_compute; reflexivity|].
  constructor; [exact (proj1 old_vec_debug)|constructor].
Qed.
